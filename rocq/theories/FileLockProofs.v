(** FileLockProofs.v -- invariants for FileLockProps.v. *)
From Coq Require Import List Arith NArith ZArith Lia Bool Permutation.
From Verif Require Import Outcome Status MemEnv PosixOs FileLock FileLockSpec.
Import ListNotations.

Lemma aget_in {A} (l : list (nat * A)) k x : aget l k = Some x -> In (k, x) l.
Proof. induction l as [|[j y] l IH]; cbn [aget]; [discriminate|]. destruct (Nat.eqb_spec j k) as [->|H]; [intros E; injection E as ->; cbn; auto|cbn; auto]. Qed.
Lemma aget_spec {A} (l : list (nat * A)) k x : NoDup (map fst l) -> In (k, x) l -> aget l k = Some x.
Proof.
  induction l as [|[j y] l IH]; cbn [aget map fst In]; [easy|]. intros N H. apply NoDup_cons_iff in N as (N1 & N2).
  destruct (Nat.eqb_spec j k) as [->|Hn].
  - destruct H as [H|H]; [congruence|]. exfalso. apply N1. apply in_map_iff. exists (k, x). auto.
  - destruct H as [H|H]; [congruence|auto].
Qed.
Lemma adel_perm {A} (l : list (nat * A)) k x : NoDup (map fst l) -> aget l k = Some x -> Permutation l ((k, x) :: adel l k).
Proof.
  induction l as [|[p g] l IH]; cbn [aget map fst]; [discriminate|]. intros N E. apply NoDup_cons_iff in N as (N1 & N2).
  unfold adel. cbn [filter fst]. destruct (Nat.eqb_spec p k) as [->|Hn]; cbn [negb].
  - injection E as ->. apply perm_skip. fold (adel l k).
    assert (H : adel l k = l).
    { clear - N1. unfold adel. induction l as [|[q h] l IH]; cbn [filter fst map]; [reflexivity|]. cbn [map fst In] in N1.
      destruct (Nat.eqb_spec q k) as [->|H]; [exfalso; auto|]. cbn [negb]. f_equal. apply IH. auto. }
    now rewrite H.
  - fold (adel l k). apply (perm_trans (perm_skip _ (IH N2 E))). apply perm_swap.
Qed.

Lemma nd_app_r {A} (l m : list A) : NoDup (l ++ m) -> NoDup l.
Proof.
  induction l as [|x l IH]; cbn [app]; intros N; [constructor|]. apply NoDup_cons_iff in N as (N1 & N2).
  constructor; [|auto]. intros H. apply N1. apply in_or_app. auto.
Qed.
Lemma nd_app_l {A} (l m : list A) : NoDup (l ++ m) -> NoDup m.
Proof. induction l as [|x l IH]; cbn [app]; intros N; [exact N|]. apply NoDup_cons_iff in N as (N1 & N2). auto. Qed.

Lemma str_eqb_spec a b : Bool.reflect (a = b) (str_eqb a b).
Proof. unfold str_eqb. destruct (list_eq_dec N.eq_dec a b); constructor; auto. Qed.
Lemma t_has_in t n : t_has t n = true <-> In n t.
Proof. unfold t_has. rewrite existsb_exists. split; [intros (x & H & E); destruct (str_eqb_spec n x); [now subst|discriminate]|intros H; exists n; split; auto; destruct (str_eqb_spec n n); auto]. Qed.
Lemma t_erase_in t n m : In m (t_erase t n) <-> In m t /\ m <> n.
Proof. unfold t_erase. rewrite filter_In. destruct (str_eqb_spec n m) as [->|H]; cbn [negb]; split; intros (A & B); split; auto; try discriminate; try congruence. Qed.

(** ** Who claims which name, and who owns which descriptor *)
Definition op_claim (c : pc) : list (nat * str) :=
  match c with
  | PSetlk p n _ | PFail p n _ _ | PUndo p n _ => [(p, n)]
  | PUnlk _ o | PRemove o => [(lk_proc o, lk_name o)]
  | PInsert _ _ _ | PReject _ _ _ | PClose _ => []
  end.
Definition claims (g : gstate) : list (nat * str) :=
  flat_map (fun x => op_claim (snd x)) (g_ops g) ++ map (fun x => (lk_proc (snd x), lk_name (snd x))) (g_live g).
Definition op_lid (c : pc) : list nat := match c with PUnlk lid _ => [lid] | _ => [] end.
Definition ids (g : gstate) : list nat := map fst (g_ops g) ++ map fst (g_live g) ++ flat_map (fun x => op_lid (snd x)) (g_ops g).

Section Inv.
  Variable ino : str -> nat.
  Variable strerror : Z -> str.

  Definition op_fd (c : pc) : list (nat * Z * nat) :=
    match c with
    | PInsert p n fd | PReject p n fd | PSetlk p n fd | PFail p n fd _ => [(p, fd, ino n)]
    | PUndo _ _ _ => []
    | PUnlk _ o | PRemove o | PClose o => [(lk_proc o, lk_fd o, ino (lk_name o))]
    end.
  Definition owned (g : gstate) : list (nat * Z * nat) :=
    flat_map (fun x => op_fd (snd x)) (g_ops g) ++ map (fun x => (lk_proc (snd x), lk_fd (snd x), ino (lk_name (snd x)))) (g_live g).

  Record GInv (g : gstate) : Prop := {
    gi_ids : NoDup (ids g);
    gi_new : forall i, In i (ids g) -> i < g_next g;
    gi_dup : NoDup (claims g);
    gi_table : forall p n, In n (g_table g p) <-> In (p, n) (claims g);
    gi_fds : Permutation (g_fds g) (owned g);
    gi_fdup : NoDup (map fst (g_fds g)) }.

  Lemma ops_dup g : GInv g -> NoDup (map fst (g_ops g)).
  Proof. intros I. pose proof (gi_ids g I) as N. unfold ids in N. apply nd_app_r in N. exact N. Qed.
  Lemma live_dup g : GInv g -> NoDup (map fst (g_live g)).
  Proof. intros I. pose proof (gi_ids g I) as N. unfold ids in N. apply nd_app_l, nd_app_r in N. exact N. Qed.

  (** Replacing one call. *)
  Lemma op_perm g id c : GInv g -> aget (g_ops g) id = Some c ->
    let rest := adel (g_ops g) id in
    Permutation (ids g) (id :: op_lid c ++ map fst rest ++ map fst (g_live g) ++ flat_map (fun x => op_lid (snd x)) rest) /\
    Permutation (claims g) (op_claim c ++ flat_map (fun x => op_claim (snd x)) rest ++ map (fun x => (lk_proc (snd x), lk_name (snd x))) (g_live g)) /\
    Permutation (g_fds g) (op_fd c ++ flat_map (fun x => op_fd (snd x)) rest ++ map (fun x => (lk_proc (snd x), lk_fd (snd x), ino (lk_name (snd x)))) (g_live g)).
  Proof.
    intros I E rest. pose proof (adel_perm _ _ _ (ops_dup g I) E) as P. fold rest in P. split; [|split].
    - unfold ids. rewrite (Permutation_map fst P), (Permutation_flat_map (fun x => op_lid (snd x)) P). cbn [map fst flat_map snd app].
      apply perm_skip. rewrite (Permutation_app_comm (op_lid c) (map fst rest ++ _)), <- !app_assoc. do 2 apply Permutation_app_head. apply Permutation_app_comm.
    - unfold claims. rewrite (Permutation_flat_map (fun x => op_claim (snd x)) P). cbn [flat_map snd]. now rewrite <- app_assoc.
    - rewrite (gi_fds g I). unfold owned. rewrite (Permutation_flat_map (fun x => op_fd (snd x)) P). cbn [flat_map snd]. now rewrite <- app_assoc.
  Qed.

  Lemma used_in fds p fd : fd_used fds p fd = true <-> In (p, fd) (map fst fds).
  Proof.
    unfold fd_used. rewrite existsb_exists, in_map_iff. split.
    - intros ([[q e] i] & H & E). cbn [fst snd] in E. apply andb_true_iff in E as (E1 & E2). apply Nat.eqb_eq in E1. apply Z.eqb_eq in E2. subst. exists (p, fd, i). auto.
    - intros ([[q e] i] & E & H). cbn [fst] in E. injection E as -> ->. exists (p, fd, i). split; [exact H|]. cbn [fst snd]. now rewrite Nat.eqb_refl, Z.eqb_refl.
  Qed.

  Lemma file_of_in fds p fd i : NoDup (map fst fds) -> In (p, fd, i) fds -> file_of fds p fd = Some i.
  Proof.
    unfold file_of. induction fds as [|[[q e] j] fds IH]; cbn [find map fst In]; [easy|]. intros N H. apply NoDup_cons_iff in N as (N1 & N2). cbn [fst snd].
    destruct (Nat.eqb_spec q p) as [->|Hq]; cbn [andb].
    - destruct (Z.eqb_spec e fd) as [->|He].
      + destruct H as [H|H]; [injection H as ->; reflexivity|]. exfalso. apply N1. apply in_map_iff. exists (p, fd, i). auto.
      + destruct H as [H|H]; [congruence|auto].
    - destruct H as [H|H]; [congruence|auto].
  Qed.

  Lemma close_fds fds p fd i l : NoDup (map fst fds) -> Permutation fds ((p, fd, i) :: l) ->
    Permutation (filter (fun x : nat * Z * nat => negb ((fst (fst x) =? p) && Z.eqb (snd (fst x)) fd)) fds) l.
  Proof.
    intros N P. pose proof (Permutation_NoDup (Permutation_map fst P) N) as N2. cbn [map fst] in N2. apply NoDup_cons_iff in N2 as (N2 & _).
    assert (G : forall (l1 l2 : list (nat * Z * nat)) f, Permutation l1 l2 -> Permutation (filter f l1) (filter f l2)).
    { clear. intros l1 l2 f P. induction P as [|x l l' P IH|x y l|l l' l'' P1 IH1 P2 IH2]; cbn [filter]; auto.
      - destruct (f x); auto.
      - destruct (f x), (f y); auto. apply perm_swap.
      - now rewrite IH1. }
    rewrite (G _ _ _ P). cbn [filter fst snd]. rewrite Nat.eqb_refl, Z.eqb_refl. cbn [andb negb].
    assert (E : filter (fun x : nat * Z * nat => negb ((fst (fst x) =? p) && Z.eqb (snd (fst x)) fd)) l = l); [|now rewrite E].
    clear - N2. induction l as [|[[q e] j] l IH]; cbn [filter fst snd]; [reflexivity|]. cbn [map fst In] in N2.
    destruct (Nat.eqb_spec q p) as [->|Hq]; cbn [andb negb].
    - destruct (Z.eqb_spec e fd) as [->|He]; [exfalso; auto|]. cbn [negb]. f_equal. apply IH. auto.
    - f_equal. apply IH. auto.
  Qed.

  Lemma fupd_eq {B} (f : nat -> B) i x : fupd f i x i = x.
  Proof. unfold fupd. now rewrite Nat.eqb_refl. Qed.
  Lemma fupd_ne {B} (f : nat -> B) i j x : j <> i -> fupd f i x j = f j.
  Proof. intros H. unfold fupd. apply Nat.eqb_neq in H. now rewrite H. Qed.

  Lemma nodup_perm_cons {A} (l : list A) x r : Permutation l (x :: r) -> NoDup l -> NoDup r /\ ~ In x r.
  Proof. intros P N. apply (Permutation_NoDup P) in N. apply NoDup_cons_iff in N. tauto. Qed.

  (** The table after a claim is given up. *)
  Lemma table_erase tb (cl cl' : list (nat * str)) p n :
    NoDup cl -> (forall q m, In m (tb q) <-> In (q, m) cl) -> Permutation cl ((p, n) :: cl') ->
    forall q m, In m (fupd tb p (t_erase (tb p) n) q) <-> In (q, m) cl'.
  Proof.
    intros N T P q m. destruct (nodup_perm_cons _ _ _ P N) as (_ & Nn).
    assert (H : In (q, m) cl <-> (p, n) = (q, m) \/ In (q, m) cl') by (split; [apply (Permutation_in _ P)|apply (Permutation_in _ (Permutation_sym P))]).
    destruct (Nat.eq_dec q p) as [->|Hq].
    - rewrite fupd_eq, t_erase_in, T, H. split; [intros ([E|E] & B); [congruence|exact E]|]. intros E. split; [auto|]. intros ->. contradiction.
    - rewrite fupd_ne by auto. rewrite T, H. split; [intros [E|E]; [congruence|exact E]|auto].
  Qed.

  Lemma ginv_step g a g' r : GInv g -> gstep ino strerror g a = Some (g', r) -> GInv g'.
  Proof.
    intros I E. pose proof (gi_ids g I) as Ni. pose proof (gi_new g I) as Nn. pose proof (gi_dup g I) as Nc. pose proof (gi_table g I) as T.
    pose proof (gi_fds g I) as F. pose proof (gi_fdup g I) as Nf.
    destruct a as [p name ans|lid|id ans]; cbn [gstep] in E.
    - (* LockFile begins *) destruct ans as [fd|err]; cbn [start_lock] in E.
      + destruct (_ || _) eqn:Eb; [discriminate|]. apply orb_false_iff in Eb as (_ & Eu). injection E as <- _.
        assert (Hn : ~ In (g_next g) (ids g)) by (intros H; apply Nn in H; lia).
        constructor; cbn [g_next g_fds g_table].
        * unfold ids in *. cbn [g_ops g_live map fst flat_map snd op_lid app]. now constructor.
        * unfold ids. cbn [g_ops g_live map fst flat_map snd op_lid app]. intros i [<-|H]; [lia|]. apply Nn in H. lia.
        * exact Nc.
        * exact T.
        * unfold owned. cbn [g_ops g_live flat_map snd op_fd app]. apply perm_skip. exact F.
        * cbn [map fst]. constructor; [|exact Nf]. intros H. apply used_in in H. congruence.
      + injection E as <- _. constructor; auto. intros i H. cbn [g_next]. apply Nn in H. lia.
    - (* UnlockFile begins *) unfold start_unlock in E. destruct (aget (g_live g) lid) as [o|] eqn:El; [|discriminate]. injection E as <- _.
      pose proof (adel_perm _ _ _ (live_dup g I) El) as P.
      assert (Hn : ~ In (g_next g) (ids g)) by (intros H; apply Nn in H; lia).
      assert (Pi : Permutation (ids g) (map fst (g_ops g) ++ map fst (adel (g_live g) lid) ++ lid :: flat_map (fun x => op_lid (snd x)) (g_ops g))).
      { unfold ids. apply Permutation_app_head. rewrite (Permutation_map fst P). cbn [map fst]. rewrite <- app_comm_cons. apply Permutation_middle. }
      constructor; cbn [g_next g_fds g_table].
      + unfold ids. cbn [g_ops g_live map fst flat_map snd op_lid app]. constructor; [|apply (Permutation_NoDup Pi Ni)].
        intros H. apply Hn. apply (Permutation_in _ (Permutation_sym Pi)). exact H.
      + unfold ids. cbn [g_ops g_live map fst flat_map snd op_lid app]. intros i [<-|H]; [lia|]. apply (Permutation_in _ (Permutation_sym Pi)) in H. apply Nn in H. lia.
      + assert (Pc : Permutation (claims g) (claims (mk_g (g_fds g) (g_lock g) (g_table g) (adel (g_live g) lid) ((g_next g, PUnlk lid o) :: g_ops g) (S (g_next g))))).
        { unfold claims. cbn [g_ops g_live flat_map snd op_claim app]. rewrite (Permutation_map _ P). cbn [map snd]. symmetry. apply Permutation_middle. }
        apply (Permutation_NoDup Pc Nc).
      + intros q m. rewrite T. unfold claims. cbn [g_ops g_live flat_map snd op_claim app].
        assert (Pc : Permutation (flat_map (fun x => op_claim (snd x)) (g_ops g) ++ map (fun x => (lk_proc (snd x), lk_name (snd x))) (g_live g))
          ((lk_proc o, lk_name o) :: flat_map (fun x => op_claim (snd x)) (g_ops g) ++ map (fun x => (lk_proc (snd x), lk_name (snd x))) (adel (g_live g) lid))).
        { rewrite (Permutation_map _ P). cbn [map snd]. symmetry. apply Permutation_middle. }
        split; [apply (Permutation_in _ Pc)|apply (Permutation_in _ (Permutation_sym Pc))].
      + apply (perm_trans F). unfold owned. cbn [g_ops g_live flat_map snd op_fd app]. rewrite (Permutation_map _ P). cbn [map snd]. symmetry. apply Permutation_middle.
      + exact Nf.
    - (* a step of a call *) destruct (aget (g_ops g) id) as [c|] eqn:Ec; [|discriminate].
      destruct (op_perm g id c I Ec) as (Pi & Pc & Pf). cbv zeta in Pi, Pc, Pf.
      set (rest := adel (g_ops g) id) in *.
      pose proof (Permutation_NoDup Pi Ni) as Ni'. pose proof (Permutation_NoDup Pc Nc) as Nc'.
      assert (Nn' : forall i, In i (id :: op_lid c ++ map fst rest ++ map fst (g_live g) ++ flat_map (fun x => op_lid (snd x)) rest) -> i < g_next g).
      { intros i H. apply Nn. apply (Permutation_in _ (Permutation_sym Pi)). exact H. }
      assert (T' : forall q m, In m (g_table g q) <-> In (q, m) (op_claim c ++ flat_map (fun x => op_claim (snd x)) rest ++ map (fun x => (lk_proc (snd x), lk_name (snd x))) (g_live g))).
      { intros q m. rewrite T. split; [apply (Permutation_in _ Pc)|apply (Permutation_in _ (Permutation_sym Pc))]. }
      assert (Nrest : NoDup (id :: map fst rest ++ map fst (g_live g) ++ flat_map (fun x => op_lid (snd x)) rest)).
      { clear - Ni'. destruct c; cbn [op_lid app] in Ni'; try exact Ni'. apply (Permutation_NoDup (perm_swap _ _ _)) in Ni'. now apply NoDup_cons_iff in Ni'. }
      assert (Hrest : forall i, In i (id :: map fst rest ++ map fst (g_live g) ++ flat_map (fun x => op_lid (snd x)) rest) -> i < g_next g).
      { intros i H. apply Nn'. destruct H as [H|H]; [left; exact H|]. right. apply in_or_app. right. exact H. }
      assert (Hr0 : NoDup (map fst rest ++ map fst (g_live g) ++ flat_map (fun x => op_lid (snd x)) rest)) by now apply NoDup_cons_iff in Nrest.
      assert (Hr1 : forall i, In i (map fst rest ++ map fst (g_live g) ++ flat_map (fun x => op_lid (snd x)) rest) -> i < g_next g).
      { intros i H. apply Hrest. right. exact H. }
      destruct c as [p name fd|p name fd|p name fd|p name fd err|p name err|lid o|o|o]; cbn [op_step] in E; fold rest in E; cbn [op_claim op_fd op_lid app] in Pc, Pf, Pi, Nc', T', Ni'.
      + destruct (t_has (g_table g p) name) eqn:Eh; injection E as <- _.
        * constructor; unfold ids, claims, owned, set_ops; cbn [g_next g_fds g_table g_ops g_live map fst snd flat_map op_lid op_claim op_fd app]; auto.
        * assert (Hnot : ~ In name (g_table g p)) by (rewrite <- t_has_in, Eh; discriminate).
          constructor; unfold ids, claims, owned; cbn [g_next g_fds g_table g_ops g_live map fst snd flat_map op_lid op_claim op_fd app]; auto.
          -- constructor; [|exact Nc']. rewrite <- T'. exact Hnot.
          -- intros q m. destruct (Nat.eq_dec q p) as [->|Hq].
             ++ rewrite fupd_eq. cbn [In]. rewrite T'. split; intros [H|H]; auto; [left; congruence|left; congruence].
             ++ rewrite fupd_ne by auto. rewrite T'. cbn [In]. split; [auto|intros [H|H]; [congruence|exact H]].
      + unfold k_close in E. injection E as <- _.
        pose proof (close_fds _ _ _ _ _ Nf Pf) as Pf'.
        constructor; unfold ids, claims, owned; cbn [g_next g_fds g_table g_ops g_live]; auto.
        apply (Permutation_NoDup (Permutation_map fst (Permutation_sym Pf'))). apply (Permutation_NoDup (Permutation_map fst Pf)) in Nf. now apply NoDup_cons_iff in Nf.
      + assert (Hfo : file_of (g_fds g) p fd = Some (ino name)).
        { apply file_of_in; [exact Nf|]. apply (Permutation_in _ (Permutation_sym Pf)). left. reflexivity. }
        rewrite Hfo in E.
        assert (Keep : forall e, GInv (set_ops g ((id, PFail p name fd e) :: rest))).
        { intros e. constructor; unfold ids, claims, owned, set_ops; cbn [g_next g_fds g_table g_ops g_live map fst snd flat_map op_lid op_claim op_fd app]; auto. }
        destruct (match g_lock g (ino name) with Some q => negb (q =? p) | None => false end).
        * destruct (Z.eqb ans 0); [discriminate|]. injection E as <- _. apply Keep.
        * destruct (Z.eqb ans 0); [|injection E as <- _; apply Keep]. injection E as <- _.
          assert (Px : Permutation (id :: map fst rest ++ map fst (g_live g) ++ flat_map (fun x => op_lid (snd x)) rest)
            (map fst rest ++ (id :: map fst (g_live g)) ++ flat_map (fun x => op_lid (snd x)) rest)).
          { cbn [app]. apply Permutation_middle. }
          constructor; unfold ids, claims, owned; cbn [g_next g_fds g_table g_ops g_live map fst snd lk_proc lk_name lk_fd]; auto.
          -- apply (Permutation_NoDup Px Nrest).
          -- intros i H. apply Hrest. apply (Permutation_in _ (Permutation_sym Px)). exact H.
          -- apply (Permutation_NoDup (Permutation_middle _ _ _) Nc').
          -- intros q m. rewrite T'. split; [apply (Permutation_in _ (Permutation_middle _ _ _))|apply (Permutation_in _ (Permutation_sym (Permutation_middle _ _ _)))].
          -- rewrite Pf. apply Permutation_middle.
      + unfold k_close in E. injection E as <- _.
        pose proof (close_fds _ _ _ _ _ Nf Pf) as Pf'.
        constructor; unfold ids, claims, owned; cbn [g_next g_fds g_table g_ops g_live map fst snd flat_map op_lid op_claim op_fd app]; auto.
        apply (Permutation_NoDup (Permutation_map fst (Permutation_sym Pf'))). apply (Permutation_NoDup (Permutation_map fst Pf)) in Nf. now apply NoDup_cons_iff in Nf.
      + injection E as <- _.
        constructor; unfold ids, claims, owned; cbn [g_next g_fds g_table g_ops g_live]; auto.
        * now apply NoDup_cons_iff in Nc'.
        * apply (table_erase _ _ _ _ _ Nc T Pc).
      + destruct (Z.eqb ans 0).
        * destruct (file_of (g_fds g) (lk_proc o) (lk_fd o)); [|discriminate]. injection E as <- _.
          constructor; unfold ids, claims, owned; cbn [g_next g_fds g_table g_ops g_live map fst snd flat_map op_lid op_claim op_fd app]; auto.
        * injection E as <- _.
          assert (Ni2 : NoDup (lid :: map fst rest ++ map fst (g_live g) ++ flat_map (fun x => op_lid (snd x)) rest)) by (now apply NoDup_cons_iff in Ni').
          assert (Px : Permutation (lid :: map fst rest ++ map fst (g_live g) ++ flat_map (fun x => op_lid (snd x)) rest)
            (map fst rest ++ (lid :: map fst (g_live g)) ++ flat_map (fun x => op_lid (snd x)) rest)).
          { cbn [app]. apply Permutation_middle. }
          constructor; unfold ids, claims, owned; cbn [g_next g_fds g_table g_ops g_live map fst snd]; auto.
          -- apply (Permutation_NoDup Px Ni2).
          -- intros i H. apply Nn'. right. apply (Permutation_in _ (Permutation_sym Px)). exact H.
          -- apply (Permutation_NoDup (Permutation_middle _ _ _) Nc').
          -- intros q m. rewrite T'. split; [apply (Permutation_in _ (Permutation_middle _ _ _))|apply (Permutation_in _ (Permutation_sym (Permutation_middle _ _ _)))].
          -- rewrite Pf. apply Permutation_middle.
      + injection E as <- _.
        constructor; unfold ids, claims, owned; cbn [g_next g_fds g_table g_ops g_live map fst snd flat_map op_lid op_claim op_fd app]; auto.
        * now apply NoDup_cons_iff in Nc'.
        * apply (table_erase _ _ _ _ _ Nc T Pc).
      + unfold k_close in E. injection E as <- _.
        pose proof (close_fds _ _ _ _ _ Nf Pf) as Pf'.
        constructor; unfold ids, claims, owned; cbn [g_next g_fds g_table g_ops g_live]; auto.
        apply (Permutation_NoDup (Permutation_map fst (Permutation_sym Pf'))). apply (Permutation_NoDup (Permutation_map fst Pf)) in Nf. now apply NoDup_cons_iff in Nf.
  Qed.

  Lemma ginv allowed g : greach ino strerror allowed g -> GInv g.
  Proof.
    induction 1 as [|g a g' r R IH A E]; [|eapply ginv_step; eauto].
    constructor; unfold ids, claims, owned, g0; cbn; try constructor; try easy.
  Qed.

  (** ** With one descriptor per process and file *)
  Definition pi (x : nat * Z * nat) : nat * nat := (fst (fst x), snd x).
  Definition locker (g : gstate) (o : lockobj) : Prop :=
    (exists id, In (id, o) (g_live g)) \/ (exists id lid, In (id, PUnlk lid o) (g_ops g)).
  Record DInv (g : gstate) : Prop := {
    di_one : NoDup (map pi (g_fds g));
    di_lock : forall o, locker g o -> g_lock g (ino (lk_name o)) = Some (lk_proc o) }.

  Lemma locker_split g id c o : GInv g -> aget (g_ops g) id = Some c -> locker g o ->
    (exists lid, c = PUnlk lid o) \/
    In (lk_proc o, lk_fd o, ino (lk_name o)) (flat_map (fun x => op_fd (snd x)) (adel (g_ops g) id) ++ map (fun x => (lk_proc (snd x), lk_fd (snd x), ino (lk_name (snd x)))) (g_live g)).
  Proof.
    intros I E [(i & H)|(i & lid & H)].
    - right. apply in_or_app. right. apply in_map_iff. exists (i, o). auto.
    - pose proof (adel_perm _ _ _ (ops_dup g I) E) as P. apply (Permutation_in _ P) in H. destruct H as [H|H].
      + injection H as _ ->. eauto.
      + right. apply in_or_app. left. apply in_flat_map. exists (i, PUnlk lid o). split; [exact H|]. left. reflexivity.
  Qed.

  (** Lockers after a step that keeps the rest. *)
  Lemma locker_keep g g' id c c' : GInv g -> aget (g_ops g) id = Some c -> g_live g' = g_live g ->
    g_ops g' = c' ++ adel (g_ops g) id -> (forall i lid o, In (i, PUnlk lid o) c' -> exists i' lid', c = PUnlk lid' o /\ i' = i) ->
    forall o, locker g' o -> locker g o.
  Proof.
    intros I E El Eo Hc o [(i & H)|(i & lid & H)].
    - left. rewrite El in H. eauto.
    - rewrite Eo in H. apply in_app_or in H as [H|H].
      + right. destruct (Hc _ _ _ H) as (i' & lid' & -> & _). apply aget_in in E. eauto.
      + right. unfold adel in H. apply filter_In in H as (H & _). eauto.
  Qed.

  Lemma dinv_step g a g' r : GInv g -> DInv g -> one_descriptor ino g a -> gstep ino strerror g a = Some (g', r) -> DInv g'.
  Proof.
    intros I [One Lk] A E. pose proof (gi_fdup g I) as Nf.
    destruct a as [p name ans|lid|id ans]; cbn [gstep] in E.
    - destruct ans as [fd|err]; cbn [start_lock] in E.
      + destruct (_ || _); [discriminate|]. injection E as <- _. constructor; cbn [g_fds g_lock].
        * cbn [map]. constructor; [|exact One]. intros H. apply in_map_iff in H as ([[q e] i] & Eq & H). unfold pi in Eq. cbn [fst snd] in Eq. injection Eq as -> ->.
          cbn [one_descriptor] in A. exact (A e H).
        * intros o [H|(i & lid & [H|H])]; [apply Lk; now left|discriminate|apply Lk; right; eauto].
      + injection E as <- _. constructor; auto.
    - unfold start_unlock in E. destruct (aget (g_live g) lid) as [o|] eqn:El; [|discriminate]. injection E as <- _. constructor; cbn [g_fds g_lock]; [exact One|].
      intros o' [(i & H)|(i & l & [H|H])].
      + cbn [g_live] in H. unfold adel in H. apply filter_In in H as (H & _). apply Lk. left. eauto.
      + injection H as _ _ <-. apply Lk. left. apply aget_in in El. eauto.
      + apply Lk. right. eauto.
    - destruct (aget (g_ops g) id) as [c|] eqn:Ec; [|discriminate].
      destruct (op_perm g id c I Ec) as (_ & _ & Pf). cbv zeta in Pf. set (rest := adel (g_ops g) id) in *.
      pose proof (Permutation_NoDup (Permutation_map pi Pf) One) as One'.
      (* nobody else in the process of a descriptor has the same file *)
      assert (Alone : forall p fd i, op_fd c = [(p, fd, i)] -> forall o, locker g o -> (forall lid, c <> PUnlk lid o) -> ino (lk_name o) = i -> lk_proc o = p -> False).
      { intros p fd i Eo o Ho Hn Ei Ep. destruct (locker_split g id c o I Ec Ho) as [(lid & H)|H]; [now apply (Hn lid)|].
        rewrite Eo in One'. cbn [app map] in One'. apply NoDup_cons_iff in One' as (N & _). apply N. unfold pi at 1. cbn [fst snd].
        apply in_map_iff. exists (lk_proc o, lk_fd o, ino (lk_name o)). split; [unfold pi; cbn [fst snd]; now subst|exact H]. }
      assert (Drop : forall p fd i, op_fd c = [(p, fd, i)] -> file_of (g_fds g) p fd = Some i).
      { intros p fd i Eo. apply file_of_in; [exact Nf|]. rewrite Eo in Pf. apply (Permutation_in _ (Permutation_sym Pf)). left. reflexivity. }
      assert (Lose : forall p fd i, op_fd c = [(p, fd, i)] -> forall o, locker g o -> (forall lid, c <> PUnlk lid o) ->
        (if has_lock (g_lock g) i p then fupd (g_lock g) i None else g_lock g) (ino (lk_name o)) = Some (lk_proc o)).
      { intros p fd i Eo o Ho Hn. pose proof (Lk o Ho) as Q. unfold has_lock. destruct (g_lock g i) as [q|] eqn:Eq; [|exact Q].
        destruct (Nat.eqb_spec q p) as [->|Hq]; [|exact Q]. destruct (Nat.eq_dec (ino (lk_name o)) i) as [Ei|Ei]; [|now rewrite fupd_ne].
        exfalso. apply (Alone p fd i Eo o Ho Hn Ei). rewrite Ei in Q. congruence. }
      assert (Fewer : forall p fd i, op_fd c = [(p, fd, i)] ->
        NoDup (map pi (filter (fun x : nat * Z * nat => negb ((fst (fst x) =? p) && Z.eqb (snd (fst x)) fd)) (g_fds g)))).
      { intros p fd i Eo. rewrite Eo in Pf, One'. pose proof (close_fds _ _ _ _ _ Nf Pf) as Pf'.
        apply (Permutation_NoDup (Permutation_map pi (Permutation_sym Pf'))). cbn [app map] in One'. now apply NoDup_cons_iff in One'. }
      destruct c as [p name fd|p name fd|p name fd|p name fd err|p name err|lid o|o|o]; cbn [op_step] in E; fold rest in E.
      + destruct (t_has (g_table g p) name); injection E as <- _.
        * constructor; [exact One|]. intros o Ho. apply Lk.
          apply (locker_keep g (set_ops g ((id, PReject p name fd) :: rest)) id _ [(id, PReject p name fd)] I Ec eq_refl eq_refl); [|exact Ho]. intros i l o' [H|[]]; discriminate.
        * constructor; [exact One|]. intros o Ho. apply Lk. eapply (locker_keep g _ id _ [(id, PSetlk p name fd)] I Ec); [| | |exact Ho]; [reflexivity|reflexivity|]. intros i l o' [H|[]]; discriminate.
      + unfold k_close in E. rewrite (Drop p fd (ino name) eq_refl) in E. injection E as <- _. constructor; cbn [g_fds g_lock]; [now apply (Fewer p fd (ino name))|].
        intros o Ho. apply (Lose p fd (ino name) eq_refl); [|discriminate]. eapply (locker_keep g _ id _ [] I Ec); [| | |exact Ho]; [reflexivity|reflexivity|easy].
      + rewrite (Drop p fd (ino name) eq_refl) in E.
        assert (Keep : forall e, DInv (set_ops g ((id, PFail p name fd e) :: rest))).
        { intros e. constructor; [exact One|]. intros o Ho. apply Lk. eapply (locker_keep g _ id _ [(id, PFail p name fd e)] I Ec); [| | |exact Ho]; [reflexivity|reflexivity|]. intros i l o' [H|[]]; discriminate. }
        destruct (match g_lock g (ino name) with Some q => negb (q =? p) | None => false end) eqn:Econf.
        * destruct (Z.eqb ans 0); [discriminate|]. injection E as <- _. apply Keep.
        * destruct (Z.eqb ans 0); [|injection E as <- _; apply Keep]. injection E as <- _. constructor; cbn [g_fds g_lock]; [exact One|].
          intros o Ho. assert (H : o = mk_lock p fd name \/ locker g o).
          { destruct Ho as [(i & [H|H])|(i & lid & H)]; [injection H as _ <-; auto|right; left; eauto|right; right]. cbn [g_ops] in H. unfold rest, adel in H. apply filter_In in H as (H & _). eauto. }
          destruct H as [->|H]; [cbn [lk_name lk_proc]; apply fupd_eq|]. pose proof (Lk o H) as Q.
          destruct (Nat.eq_dec (ino (lk_name o)) (ino name)) as [Ei|Ei]; [|now rewrite fupd_ne]. rewrite Ei, fupd_eq. rewrite Ei in Q. rewrite Q in Econf.
          apply negb_false_iff, Nat.eqb_eq in Econf. now subst.
      + unfold k_close in E. rewrite (Drop p fd (ino name) eq_refl) in E. injection E as <- _. constructor; cbn [g_fds g_lock]; [now apply (Fewer p fd (ino name))|].
        intros o Ho. apply (Lose p fd (ino name) eq_refl); [|discriminate]. eapply (locker_keep g _ id _ [(id, PUndo p name err)] I Ec); [| | |exact Ho]; [reflexivity|reflexivity|].
        intros i l o' [H|[]]; discriminate.
      + injection E as <- _. constructor; [exact One|]. intros o Ho. apply Lk. eapply (locker_keep g _ id _ [] I Ec); [| | |exact Ho]; [reflexivity|reflexivity|easy].
      + destruct (Z.eqb ans 0).
        * rewrite (Drop (lk_proc o) (lk_fd o) (ino (lk_name o)) eq_refl) in E. injection E as <- _. constructor; cbn [g_fds g_lock]; [exact One|].
          intros o' Ho'. apply (Lose (lk_proc o) (lk_fd o) (ino (lk_name o)) eq_refl).
          -- eapply (locker_keep g _ id _ [(id, PRemove o)] I Ec); [| | |exact Ho']; [reflexivity|reflexivity|]. intros i l o2 [H|[]]; discriminate.
          -- intros l Eq. injection Eq as <- <-.
             (* o itself is no longer a locker: its claim would be there twice *)
             assert (Hin : In (lk_proc o, lk_fd o, ino (lk_name o)) (flat_map (fun x => op_fd (snd x)) rest ++ map (fun x => (lk_proc (snd x), lk_fd (snd x), ino (lk_name (snd x)))) (g_live g))).
             { destruct Ho' as [(i & H)|(i & l & [H|H])]; [|discriminate|]; apply in_or_app.
               - right. apply in_map_iff. exists (i, o). auto.
               - left. apply in_flat_map. exists (i, PUnlk l o). split; [exact H|]. left. reflexivity. }
             cbn [op_fd app map] in One'. apply NoDup_cons_iff in One' as (N & _). apply N. apply in_map_iff. eexists. split; [|exact Hin]. reflexivity.
        * injection E as <- _. constructor; cbn [g_fds g_lock]; [exact One|]. intros o' Ho'. apply Lk.
          destruct Ho' as [(i & [H|H])|(i & l & H)].
          -- injection H as _ <-. right. apply aget_in in Ec. eauto.
          -- left. eauto.
          -- cbn [g_ops] in H. unfold rest, adel in H. apply filter_In in H as (H & _). right. eauto.
      + injection E as <- _. constructor; [exact One|]. intros o' Ho. apply Lk. eapply (locker_keep g _ id _ [(id, PClose o)] I Ec); [| | |exact Ho]; [reflexivity|reflexivity|]. intros i l o2 [H|[]]; discriminate.
      + unfold k_close in E. rewrite (Drop (lk_proc o) (lk_fd o) (ino (lk_name o)) eq_refl) in E. injection E as <- _. constructor; cbn [g_fds g_lock]; [now apply (Fewer (lk_proc o) (lk_fd o) (ino (lk_name o)))|].
        intros o' Ho. apply (Lose (lk_proc o) (lk_fd o) (ino (lk_name o)) eq_refl); [|discriminate]. eapply (locker_keep g _ id _ [] I Ec); [| | |exact Ho]; [reflexivity|reflexivity|easy].
  Qed.

  Lemma dinv g : greach ino strerror (one_descriptor ino) g -> DInv g.
  Proof.
    induction 1 as [|g a g' r R IH A E]; [|eapply dinv_step; eauto; eapply ginv; eauto].
    constructor; cbn; [constructor|]. intros o [(i & [])|(i & l & [])].
  Qed.

  (** Runs of an executable list of actions. *)
  Fixpoint gexec (g : gstate) (acts : list act) : option (gstate * list (option status)) :=
    match acts with
    | [] => Some (g, [])
    | a :: acts' => match gstep ino strerror g a with
                    | Some (g', r) => match gexec g' acts' with Some (g2, rs) => Some (g2, r :: rs) | None => None end
                    | None => None
                    end
    end.
  Lemma gexec_reach acts : forall g g' rs, greach ino strerror anything g -> gexec g acts = Some (g', rs) -> greach ino strerror anything g'.
  Proof.
    induction acts as [|a acts IH]; intros g g' rs R E; cbn [gexec] in E; [injection E as <- _; exact R|].
    destruct (gstep ino strerror g a) as [[g1 r]|] eqn:Es; [|discriminate]. destruct (gexec g1 acts) as [[g2 rs2]|] eqn:E2; [|discriminate]. injection E as <- _.
    apply (IH g1 g2 rs2); [|exact E2]. apply (gr_step ino strerror anything g a g1 r R Logic.I Es).
  Qed.
End Inv.
