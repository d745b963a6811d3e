(** PosixReadProofs.v -- lemmas for PosixReadProps.v. *)
From Coq Require Import List Arith NArith ZArith Lia Bool Permutation.
From Verif Require Import Outcome Heap Status MemEnv MemEnvMem PosixOs PosixFd PosixRead EnvUtil PosixReadSpec.
Import ListNotations.
Local Open Scope outcome_scope.

Lemma sys_log {S} (os : S -> syscall -> S * answer) w c : w_log (fst (sys os w c)) = w_log w ++ [(c, snd (sys os w c))].
Proof. reflexivity. Qed.

Lemma error_not_ok strerror ctx e : PosixError strerror ctx e <> SOk.
Proof. unfold PosixError. destruct (_ =? _)%Z; discriminate. Qed.

Lemma firstn_extend {A} (c d : list A) p : p + length d <= length c -> d = firstn (length d) (skipn p c) -> firstn p c ++ d = firstn (p + length d) c.
Proof.
  intros Hl Hd. remember (length d) as k eqn:Ek. rewrite <- (firstn_skipn p c) at 2.
  rewrite firstn_app, firstn_firstn, firstn_length. rewrite Hd. f_equal; f_equal; lia.
Qed.

(** ** Sequential *)
Section Seq.
  Variable strerror : Z -> str.
  Variable S : Type.
  Variable os : S -> syscall -> S * answer.
  Variable content : list N.

  Lemma seq_read_delivers fuel : forall w f n w' st r l p p',
    seq_read strerror S os fuel w f n = Ret (w', st, r) -> w_log w' = w_log w ++ l -> plays content (sq_fd f) p l p' ->
    (st <> SOk /\ r = Untouched /\ p' = p) \/
    (st = SOk /\ exists d, r = Bytes d /\ d = firstn (length d) (skipn (Z.to_nat p) content) /\ (N.of_nat (length d) <= n)%N /\
       (d = [] -> n = 0%N \/ (Z.of_nat (length content) <= p)%Z) /\ p' = (p + Z.of_nat (length d))%Z).
  Proof.
    induction fuel as [|fuel IH]; intros w f n w' st r l p p' E L P; cbn [seq_read] in E; [discriminate|].
    pose proof (sys_log os w (CRead (sq_fd f) n)) as L0. remember (sys os w (CRead (sq_fd f) n)) as wa eqn:Ewa. clear Ewa. destruct wa as [w1 a]. cbn [fst snd] in L0.
    destruct (Z.ltb_spec (a_ret a) 0) as [Hneg|Hpos].
    - destruct (Z.eqb_spec (a_errno a) EINTR) as [He|He].
      + (* retried *)
        assert (Mono : forall fu w1 w' st r, seq_read strerror S os fu w1 f n = Ret (w', st, r) -> exists l1, w_log w' = w_log w1 ++ l1).
        { clear. induction fu as [|fu IH]; intros w1 w' st r E; cbn [seq_read] in E; [discriminate|].
          pose proof (sys_log os w1 (CRead (sq_fd f) n)) as L0. remember (sys os w1 (CRead (sq_fd f) n)) as wa eqn:Ewa. clear Ewa. destruct wa as [w2 a]. cbn [fst snd] in L0.
          destruct (a_ret a <? 0)%Z; [destruct (a_errno a =? EINTR)%Z|destruct (Z.of_N n <? a_ret a)%Z; [discriminate|]].
          - destruct (IH _ _ _ _ E) as (l1 & H). rewrite L0, <- app_assoc in H. eauto.
          - injection E as <- _ _. eauto.
          - injection E as <- _ _. eauto. }
        destruct (Mono _ _ _ _ _ E) as (l1 & L1).
        assert (El : l = (CRead (sq_fd f) n, a) :: l1).
        { rewrite L, L0, <- app_assoc in L1. now apply app_inv_head in L1. }
        subst l. inversion P; subst; [eapply IH; eauto|lia].
      + injection E as <- <- <-. rewrite L in L0. apply app_inv_head in L0. subst l.
        left. split; [apply error_not_ok|]. split; [reflexivity|]. inversion P as [|? ? ? ? ? _ P2|? ? ? ? ? Q1 Q2 Q3 Q4 P2| |]; subst; [|lia]. inversion P2; reflexivity.
    - destruct (Z.ltb_spec (Z.of_N n) (a_ret a)) as [Hb|Hb]; [discriminate|].
      injection E as <- <- <-. rewrite L in L0. apply app_inv_head in L0. subst l.
      inversion P as [|? ? ? ? ? ? P2|? ? ? ? ? Q1 Q2 Q3 Q4 P2| |]; subst; [lia|]. inversion P2; subst.
      right. split; [reflexivity|]. exists (a_data a). rewrite Q1, Nat2Z.id, firstn_all. auto.
  Qed.

  Lemma seq_read_log fuel : forall w f n w' st r, seq_read strerror S os fuel w f n = Ret (w', st, r) ->
    exists l, w_log w' = w_log w ++ l /\ Forall (fun e => fst e = CRead (sq_fd f) n) l.
  Proof.
    induction fuel as [|fuel IH]; intros w1 f n w' st r E; cbn [seq_read] in E; [discriminate|].
    pose proof (sys_log os w1 (CRead (sq_fd f) n)) as L0. remember (sys os w1 (CRead (sq_fd f) n)) as wa eqn:Ewa. clear Ewa. destruct wa as [w2 a]. cbn [fst snd] in L0.
    assert (One : Forall (fun e : event => fst e = CRead (sq_fd f) n) [(CRead (sq_fd f) n, a)]) by (constructor; [reflexivity|constructor]).
    destruct (a_ret a <? 0)%Z; [destruct (a_errno a =? EINTR)%Z|destruct (Z.of_N n <? a_ret a)%Z; [discriminate|]].
    - destruct (IH _ _ _ _ _ _ E) as (l1 & H & F). rewrite L0, <- app_assoc in H. exists ((CRead (sq_fd f) n, a) :: l1). split; [exact H|]. now constructor.
    - injection E as <- _ _. eauto.
    - injection E as <- _ _. eauto.
  Qed.

  Lemma plays_app fd l1 : forall l2 p p', plays content fd p (l1 ++ l2) p' -> exists q, plays content fd p l1 q /\ plays content fd q l2 p'.
  Proof.
    induction l1 as [|e l1 IH]; intros l2 p p' P; [exists p; split; [constructor|exact P]|].
    cbn [app] in P. inversion P; subst;
      match goal with H : plays _ _ _ (l1 ++ l2) _ |- _ => destruct (IH _ _ _ H) as (q & Q1 & Q2) end; exists q; (split; [|exact Q2]).
    - now apply pl_fail.
    - now apply pl_read.
    - now apply pl_seek.
    - now apply pl_seek_fail.
  Qed.

  Lemma srun_log fuel f : forall cs w w' rs, srun strerror S os fuel w f cs = Ret (w', rs) -> exists l, w_log w' = w_log w ++ l.
  Proof.
    induction cs as [|[n|n] cs IH]; intros w w' rs E; cbn [srun] in E.
    - injection E as <- _. exists []. now rewrite app_nil_r.
    - destruct (seq_read strerror S os fuel w f n) as [[[w1 st] r]| | |] eqn:Es; cbn [bind] in E; try discriminate.
      destruct (srun strerror S os fuel w1 f cs) as [[w2 rs2]| | |] eqn:E2; cbn [bind] in E; try discriminate. injection E as <- _.
      destruct (seq_read_log _ _ _ _ _ _ _ Es) as (l1 & L1 & _). destruct (IH _ _ _ E2) as (l2 & L2). exists (l1 ++ l2). rewrite L2, L1, app_assoc. reflexivity.
    - unfold seq_skip in E. pose proof (sys_log os w (CLseek (sq_fd f) (off_t n))) as L0.
      remember (sys os w (CLseek (sq_fd f) (off_t n))) as wa eqn:Ewa. clear Ewa. destruct wa as [w1 a]. cbn [fst snd] in L0.
      destruct (a_ret a =? -1)%Z;
        (destruct (srun strerror S os fuel w1 f cs) as [[w2 rs2]| | |] eqn:E2; cbn [bind] in E; try discriminate; injection E as <- _;
         destruct (IH _ _ _ E2) as (l2 & L2); rewrite L0, <- app_assoc in L2; eauto).
  Qed.

  Lemma srun_delivers fuel f : forall cs w w' rs l p p', srun strerror S os fuel w f cs = Ret (w', rs) -> w_log w' = w_log w ++ l ->
    (0 <= p)%Z -> plays content (sq_fd f) p l p' -> delivers content p cs rs p'.
  Proof.
    induction cs as [|[n|n] cs IH]; intros w w' rs l p p' E L Hp P; cbn [srun] in E.
    - injection E as <- <-. rewrite <- (app_nil_r (w_log w)) in L at 1. apply app_inv_head in L. subst l. inversion P; subst. constructor.
    - destruct (seq_read strerror S os fuel w f n) as [[[w1 st] r]| | |] eqn:Es; cbn [bind] in E; try discriminate.
      destruct (srun strerror S os fuel w1 f cs) as [[w2 rs2]| | |] eqn:E2; cbn [bind] in E; try discriminate. injection E as <- <-.
      destruct (seq_read_log _ _ _ _ _ _ _ Es) as (l1 & L1 & _). destruct (srun_log _ _ _ _ _ _ E2) as (l2 & L2).
      assert (l = l1 ++ l2). { rewrite L2, L1, <- app_assoc in L. now apply app_inv_head in L. } subst l.
      destruct (plays_app _ _ _ _ _ P) as (q & P1 & P2).
      destruct (seq_read_delivers _ _ _ _ _ _ _ _ _ _ Es L1 P1) as [(H1 & -> & ->)|(-> & d & -> & H1 & H2 & H3 & ->)].
      + apply dl_read_err; [exact H1|]. now apply (IH _ _ _ _ _ _ E2 L2).
      + apply dl_read; auto. apply (IH _ _ _ _ _ _ E2 L2); [lia|exact P2].
    - unfold seq_skip in E. pose proof (sys_log os w (CLseek (sq_fd f) (off_t n))) as L0.
      remember (sys os w (CLseek (sq_fd f) (off_t n))) as wa eqn:Ewa. clear Ewa. destruct wa as [w1 a]. cbn [fst snd] in L0.
      destruct (Z.eqb_spec (a_ret a) (-1)) as [He|He];
        (destruct (srun strerror S os fuel w1 f cs) as [[w2 rs2]| | |] eqn:E2; cbn [bind] in E; try discriminate; injection E as <- <-;
         destruct (srun_log _ _ _ _ _ _ E2) as (l2 & L2);
         assert (l = (CLseek (sq_fd f) (off_t n), a) :: l2) by (rewrite L2, L0, <- app_assoc in L; now apply app_inv_head in L); subst l).
      + apply dl_skip_err; [apply error_not_ok|]. inversion P; subst; [lia|]. now apply (IH _ _ _ _ _ _ E2 L2).
      + inversion P; subst; [|contradiction]. apply dl_skip; [auto|]. now apply (IH _ _ _ _ _ _ E2 L2).
  Qed.
End Seq.

(** ** Accounting *)
Lemma remove1_in x l : In x l -> exists l', remove1 x l = Some l' /\ Permutation l (x :: l').
Proof.
  induction l as [|y l IH]; cbn [In remove1]; [easy|]. intros H. destruct (Z.eqb_spec x y) as [<-|Hn]; [eauto|].
  destruct H as [->|H]; [contradiction|]. destruct (IH H) as (l' & -> & P). cbn [option_map]. exists (y :: l'). split; [reflexivity|].
  rewrite P. apply perm_swap.
Qed.
Lemma unmap_in b n ms : In (b, n) ms -> exists ms', unmap b n ms = Some ms' /\ Permutation ms ((b, n) :: ms').
Proof.
  induction ms as [|[b' n'] ms IH]; cbn [In unmap fst snd]; [easy|]. intros H.
  destruct (N.eqb_spec b b') as [<-|Hb]; cbn [andb].
  - destruct (N.eqb_spec n n') as [<-|Hn]; [eauto|]. destruct H as [H|H]; [congruence|].
    destruct (IH H) as (l' & -> & P). cbn [option_map]. eexists. split; [reflexivity|]. rewrite P. apply perm_swap.
  - destruct H as [H|H]; [congruence|].
    destruct (IH H) as (l' & -> & P). cbn [option_map]. eexists. split; [reflexivity|]. rewrite P. apply perm_swap.
Qed.
Lemma maps_after_app l l' : forall ms, maps_after ms (l ++ l') = match maps_after ms l with Some ms' => maps_after ms' l' | None => None end.
Proof.
  induction l as [|[c a] l IH]; intros ms; cbn [app maps_after]; [reflexivity|]. destruct c; try apply IH.
  destruct (unmap base len ms); [apply IH|reflexivity].
Qed.

Lemma rlookup_in l o f : rlookup l o = Some f -> In (o, f) l.
Proof. induction l as [|[p g] l IH]; cbn [rlookup]; [discriminate|]. destruct (Nat.eqb_spec p o) as [->|H]; [intros E; injection E as ->; cbn; auto|cbn; auto]. Qed.

Lemma rdrop_perm l o f : NoDup (map fst l) -> rlookup l o = Some f -> Permutation l ((o, f) :: rdrop l o).
Proof.
  induction l as [|[p g] l IH]; cbn [rlookup map fst]; [discriminate|]. intros N E. apply NoDup_cons_iff in N as (N1 & N2).
  unfold rdrop. cbn [filter fst]. destruct (Nat.eqb_spec p o) as [->|Hn]; cbn [negb].
  - injection E as ->. apply perm_skip. fold (rdrop l o).
    assert (H : rdrop l o = l).
    { clear - N1. unfold rdrop. induction l as [|[q h] l IH]; cbn [filter fst map]; [reflexivity|]. cbn [map fst In] in N1.
      destruct (Nat.eqb_spec q o) as [->|H]; [exfalso; auto|]. cbn [negb]. f_equal. apply IH. auto. }
    now rewrite H.
  - fold (rdrop l o). apply (perm_trans (perm_skip _ (IH N2 E))). apply perm_swap.
Qed.

Section Acct.
  Variable dbg : bool.
  Variable strerror : Z -> str.
  Variable S : Type.
  Variable os : S -> syscall -> S * answer.

  Definition slots (f : option ranfile) (p : ranfile -> bool) : Z := match f with Some f => if p f then 1 else 0 | None => 0 end.
  Definition ofds (f : option ranfile) : list Z := match f with Some (RPerm fd _) => [fd] | _ => [] end.
  Definition omaps (f : option ranfile) : list (N * N) := match f with Some (RMmap b n _) => [(b, n)] | _ => [] end.

  Ltac syscall w1 a L :=
    match goal with |- context [sys os ?w ?c] =>
      pose proof (sys_log os w c) as L; let wa := fresh "wa" in remember (sys os w c) as wa eqn:Ewa; clear Ewa; destruct wa as [w1 a]; cbn [fst snd] in L
    end.

  Lemma acquire_eq z : acquire z = if (0 <? z)%Z then ((z - 1)%Z, true) else (z, false).
  Proof. unfold acquire. destruct (0 <? z)%Z; [reflexivity|]. f_equal. lia. Qed.

  Lemma new_random_acct w lim name w' lim' f st : new_random strerror S os w lim name = (w', lim', f, st) ->
    (l_mmap lim' + slots f is_mmap = l_mmap lim)%Z /\ (l_fd lim' + slots f is_perm = l_fd lim)%Z /\
    ((0 <= l_mmap lim)%Z -> (0 <= l_mmap lim')%Z) /\ ((0 <= l_fd lim)%Z -> (0 <= l_fd lim')%Z) /\
    ((l_mmap lim <= 0)%Z -> slots f is_mmap = 0%Z) /\ ((l_fd lim <= 0)%Z -> slots f is_perm = 0%Z) /\
    (f = None <-> st <> SOk) /\ (forall fd nm, f = Some (RPerm fd nm) -> (0 <= fd)%Z) /\
    exists l, w_log w' = w_log w ++ l /\ forall fds ms, fds_after fds l = Some (ofds f ++ fds) /\ maps_after ms l = Some (omaps f ++ ms).
  Proof.
    unfold new_random. syscall w1 a L1.
    destruct (Z.ltb_spec (a_ret a) 0) as [Hneg|Hpos].
    { intros E. injection E as <- <- <- <-. cbn [slots ofds omaps app]. repeat (split; [lia|]). split; [split; [intros _; apply error_not_ok|reflexivity]|].
      split; [discriminate|].
      exists [(COpen name RdOnly, a)]. split; [exact L1|]. intros fds ms. cbn [fds_after maps_after].
      destruct (Z.leb_spec 0 (a_ret a)); [lia|]. split; reflexivity. }
    assert (Op : (0 <=? a_ret a)%Z = true) by now apply Z.leb_le. assert (On : (a_ret a <? 0)%Z = false) by now apply Z.ltb_ge.
    rewrite (acquire_eq (l_mmap lim)). destruct (Z.ltb_spec 0 (l_mmap lim)) as [Hm|Hm]; cbn [negb].
    - unfold get_file_size. syscall w2 b L2.
      destruct (Z.eqb_spec (a_ret b) 0) as [Hb|Hb]; cbn [negb].
      + syscall w3 m L3. destruct (Z.eqb_spec (a_ret m) (-1)) as [Em|Em]; cbn [negb].
        * syscall w4 c L4. destruct (PosixError strerror name (a_errno m)) as [|cd m1 m2] eqn:Ep; [now apply error_not_ok in Ep|].
          intros E. injection E as <- <- <- <-. cbn [slots ofds omaps app l_mmap l_fd]. unfold release. repeat (split; [lia|]).
          split; [split; [intros _; discriminate|reflexivity]|]. split; [discriminate|].
          exists [(COpen name RdOnly, a); (CStat name, b); (CMmap (a_ret a) (a_val b), m); (CClose (a_ret a), c)].
          split; [rewrite L4, L3, L2, L1, <- !app_assoc; reflexivity|]. intros fds ms. cbn [fds_after maps_after remove1].
          rewrite Op, On, Em. cbn [remove1]. rewrite !Z.eqb_refl. split; reflexivity.
        * syscall w4 c L4. intros E. injection E as <- <- <- <-. cbn [slots ofds omaps app l_mmap l_fd is_mmap is_perm]. repeat (split; [lia|]).
          split; [split; [discriminate|intros H; now destruct H]|]. split; [discriminate|].
          exists [(COpen name RdOnly, a); (CStat name, b); (CMmap (a_ret a) (a_val b), m); (CClose (a_ret a), c)].
          split; [rewrite L4, L3, L2, L1, <- !app_assoc; reflexivity|]. intros fds ms. cbn [fds_after maps_after remove1].
          apply Z.eqb_neq in Em. rewrite Op, On, Em. cbn [remove1]. rewrite !Z.eqb_refl. split; reflexivity.
      + destruct (PosixError strerror name (a_errno b)) as [|cd m1 m2] eqn:Ep; [now apply error_not_ok in Ep|]. syscall w4 c L4.
        intros E. injection E as <- <- <- <-. cbn [slots ofds omaps app l_mmap l_fd]. unfold release. repeat (split; [lia|]).
        split; [split; [intros _; discriminate|reflexivity]|]. split; [discriminate|].
        exists [(COpen name RdOnly, a); (CStat name, b); (CClose (a_ret a), c)].
        split; [rewrite L4, L2, L1, <- !app_assoc; reflexivity|]. intros fds ms. cbn [fds_after maps_after remove1].
        rewrite Op, On. cbn [remove1]. rewrite !Z.eqb_refl. split; reflexivity.
    - unfold new_pread. cbn [l_fd l_mmap]. rewrite (acquire_eq (l_fd lim)). destruct (Z.ltb_spec 0 (l_fd lim)) as [Hf|Hf].
      + intros E. injection E as <- <- <- <-. cbn [slots ofds omaps app l_mmap l_fd is_mmap is_perm]. repeat (split; [lia|]).
        split; [split; [discriminate|intros H; now destruct H]|]. split; [intros fd nm E; injection E as <- _; lia|].
        exists [(COpen name RdOnly, a)]. split; [exact L1|]. intros fds ms. cbn [fds_after maps_after]. rewrite Op. split; reflexivity.
      + syscall w2 c L2. intros E. injection E as <- <- <- <-. cbn [slots ofds omaps app l_mmap l_fd is_mmap is_perm]. repeat (split; [lia|]).
        split; [split; [discriminate|intros H; now destruct H]|]. split; [discriminate|].
        exists [(COpen name RdOnly, a); (CClose (a_ret a), c)]. split; [rewrite L2, L1, <- app_assoc; reflexivity|]. intros fds ms.
        cbn [fds_after maps_after remove1]. rewrite Op, On. cbn [remove1]. rewrite !Z.eqb_refl. split; reflexivity.
  Qed.

  Lemma assert_cases (c : bool) {B} (k : unit -> outcome B) r : bind (assert_ dbg c) k = Ret r -> k tt = Ret r.
  Proof. unfold assert_. destruct dbg, c; cbn; intros; auto; discriminate. Qed.

  Lemma ran_read_acct w f off n w' st r : ran_read dbg strerror S os w f off n = Ret (w', st, r) ->
    exists l, w_log w' = w_log w ++ l /\ forall fds ms, fds_after fds l = Some fds /\ maps_after ms l = Some ms.
  Proof.
    destruct f as [fd nm|nm|b len nm]; cbn [ran_read].
    - intros E. apply assert_cases in E. revert E. syscall w1 a L1. destruct (_ <? _)%Z; [discriminate|]. intros E. injection E as <- _ _.
      exists [(CPread fd n (off_t off), a)]. split; [exact L1|]. intros; split; reflexivity.
    - syscall w1 a L1. destruct (Z.ltb_spec (a_ret a) 0) as [H|H].
      + intros E. injection E as <- _ _. eexists. split; [exact L1|]. intros. cbn [fds_after maps_after]. destruct (Z.leb_spec 0 (a_ret a)); [lia|]. split; reflexivity.
      + intros E. apply assert_cases in E. revert E. syscall w2 b L2. destruct (_ <? _)%Z; [discriminate|].
        intros E. apply assert_cases in E. revert E. syscall w3 c L3. intros E. injection E as <- _ _.
        exists [(COpen nm RdOnly, a); (CPread (a_ret a) n (off_t off), b); (CClose (a_ret a), c)]. split; [rewrite L3, L2, L1, <- !app_assoc; reflexivity|].
        intros. cbn [fds_after maps_after remove1]. destruct (Z.leb_spec 0 (a_ret a)); [|lia]. destruct (Z.ltb_spec (a_ret a) 0); [lia|].
        cbn [remove1]. rewrite Z.eqb_refl. split; reflexivity.
    - destruct (_ <? _)%N; intros E; injection E as <- _ _; exists []; (split; [now rewrite app_nil_r|intros; split; reflexivity]).
  Qed.

  Lemma ran_delete_acct w lim f w' lim' : ran_delete dbg S os w lim f = Ret (w', lim') -> (forall fd nm, f = RPerm fd nm -> (0 <= fd)%Z) ->
    (l_mmap lim' = l_mmap lim + slots (Some f) is_mmap)%Z /\ (l_fd lim' = l_fd lim + slots (Some f) is_perm)%Z /\
    exists l, w_log w' = w_log w ++ l /\ forall fds ms fds0 ms0, Permutation fds (ofds (Some f) ++ fds0) -> Permutation ms (omaps (Some f) ++ ms0) ->
      exists fds' ms', fds_after fds l = Some fds' /\ maps_after ms l = Some ms' /\ Permutation fds' fds0 /\ Permutation ms' ms0.
  Proof.
    intros E Hf. destruct f as [fd nm|nm|b len nm]; cbn [ran_delete] in E.
    - apply assert_cases in E. revert E. syscall w1 a L1. intros E. injection E as <- <-. cbn [slots is_mmap is_perm l_mmap l_fd]. unfold release.
      split; [lia|]. split; [lia|]. eexists. split; [exact L1|]. intros fds ms fds0 ms0 P1 P2. cbn [ofds omaps app] in *. cbn [fds_after maps_after].
      specialize (Hf fd nm eq_refl). destruct (Z.ltb_spec fd 0); [lia|].
      destruct (remove1_in fd fds) as (l' & -> & P); [apply (Permutation_in _ (Permutation_sym P1)); left; reflexivity|].
      exists l', ms. repeat split; auto. apply (Permutation_cons_inv (a := fd)). now rewrite <- P, P1.
    - injection E as <- <-. cbn [slots is_mmap is_perm]. split; [lia|]. split; [lia|]. exists []. split; [now rewrite app_nil_r|].
      intros fds ms fds0 ms0 P1 P2. exists fds, ms. auto.
    - revert E. syscall w1 a L1. intros E. injection E as <- <-. cbn [slots is_mmap is_perm l_mmap l_fd]. unfold release.
      split; [lia|]. split; [lia|]. eexists. split; [exact L1|]. intros fds ms fds0 ms0 P1 P2. cbn [ofds omaps app] in *. cbn [fds_after maps_after].
      destruct (unmap_in b len ms) as (l' & -> & P); [apply (Permutation_in _ (Permutation_sym P2)); left; reflexivity|].
      exists fds, l'. repeat split; auto. apply (Permutation_cons_inv (a := (b, len))). now rewrite <- P, P2.
  Qed.

  Lemma count_cons p o f l : count p ((o, f) :: l) = (if p f then 1 else 0) + count p l.
  Proof. unfold count. cbn [filter snd]. destruct (p f); reflexivity. Qed.
  Lemma count_perm p l l' : Permutation l l' -> count p l = count p l'.
  Proof.
    unfold count. intros P. apply Permutation_length.
    induction P as [|x l l' P IH|x y l|l l' l'' P1 IH1 P2 IH2]; cbn [filter].
    - reflexivity.
    - destruct (p (snd x)); auto.
    - destruct (p (snd x)), (p (snd y)); auto. apply perm_swap.
    - now rewrite IH1.
  Qed.

  Record Acct (w0 : world S) (lim0 : limits) (e : renv S) : Prop := {
    ac_dup : NoDup (map fst (r_live e));
    ac_old : forall o f, In (o, f) (r_live e) -> o < r_next e;
    ac_fd : forall o fd nm, In (o, RPerm fd nm) (r_live e) -> (0 <= fd)%Z;
    ac_mmap : (l_mmap (r_lim e) + Z.of_nat (count is_mmap (r_live e)) = l_mmap lim0)%Z;
    ac_perm : (l_fd (r_lim e) + Z.of_nat (count is_perm (r_live e)) = l_fd lim0)%Z;
    ac_mmap_pos : (l_mmap lim0 < 0)%Z -> count is_mmap (r_live e) = 0;
    ac_perm_pos : (l_fd lim0 < 0)%Z -> count is_perm (r_live e) = 0;
    ac_mmap_lim : (0 <= l_mmap lim0)%Z -> (0 <= l_mmap (r_lim e))%Z;
    ac_perm_lim : (0 <= l_fd lim0)%Z -> (0 <= l_fd (r_lim e))%Z;
    ac_log : exists l fds ms, w_log (r_world e) = w_log w0 ++ l /\ fds_after [] l = Some fds /\ Permutation fds (owned_fds (r_live e)) /\
      maps_after [] l = Some ms /\ Permutation ms (owned_maps (r_live e))
  }.

  Lemma owned_perm l l' : Permutation l l' -> Permutation (owned_fds l) (owned_fds l') /\ Permutation (owned_maps l) (owned_maps l').
  Proof. intros P. split; now apply Permutation_flat_map. Qed.
  Lemma owned_cons o f l : owned_fds ((o, f) :: l) = ofds (Some f) ++ owned_fds l /\ owned_maps ((o, f) :: l) = omaps (Some f) ++ owned_maps l.
  Proof. destruct f; split; reflexivity. Qed.

  Lemma acct_step w0 lim0 e c e' : Acct w0 lim0 e -> rstep dbg strerror S os e c = Some (Ret e') -> Acct w0 lim0 e'.
  Proof.
    intros [Dup Old Fd Mm Pm Mp Pp Ml Pl (l0 & fds0 & ms0 & L0 & F0 & PF & M0 & PM)] E. destruct c as [name|o off n|o]; cbn [rstep] in E.
    - destruct (new_random strerror S os (r_world e) (r_lim e) name) as [[[w' lim'] f] st] eqn:En. injection E as <-.
      destruct (new_random_acct _ _ _ _ _ _ _ En) as (A1 & A2 & A3 & A4 & A5 & A6 & _ & A7 & l & Ll & A8). destruct (A8 fds0 ms0) as (B1 & B2).
      assert (Lg : forall live, owned_fds live = ofds f ++ owned_fds (r_live e) -> owned_maps live = omaps f ++ owned_maps (r_live e) ->
        exists l fds ms, w_log w' = w_log w0 ++ l /\ fds_after [] l = Some fds /\ Permutation fds (owned_fds live) /\
          maps_after [] l = Some ms /\ Permutation ms (owned_maps live)).
      { intros live H1 H2. exists (l0 ++ l), (ofds f ++ fds0), (omaps f ++ ms0). rewrite fds_after_app, F0, maps_after_app, M0, Ll, L0, app_assoc, H1, H2.
        repeat split; auto; now apply Permutation_app_head. }
      destruct f as [f|]; constructor; cbn [r_world r_lim r_live r_next]; auto.
      + cbn [map fst]. constructor; [|exact Dup]. intros Hi. apply in_map_iff in Hi as ([o g] & Eo & Hi). cbn in Eo. apply Old in Hi. lia.
      + intros o g [Hi|Hi]; [injection Hi; lia|]. apply Old in Hi. lia.
      + intros o fd nm [Hi|Hi]; [injection Hi as _ ->; eapply A7; reflexivity|eauto].
      + rewrite count_cons. cbn [slots] in A1. destruct (is_mmap f); lia.
      + rewrite count_cons. cbn [slots] in A2. destruct (is_perm f); lia.
      + intros H. rewrite count_cons. pose proof (Mp H) as Q. cbn [slots] in A5. destruct (is_mmap f); lia.
      + intros H. rewrite count_cons. pose proof (Pp H) as Q. cbn [slots] in A6. destruct (is_perm f); lia.
      + intros o g Hi. apply Old in Hi. lia.
      + cbn [slots] in A1. lia.
      + cbn [slots] in A2. lia.
    - destruct (rlookup (r_live e) o) as [f|] eqn:El; [|discriminate]. injection E as E.
      destruct (ran_read dbg strerror S os (r_world e) f off n) as [[[w' st] r]| | |] eqn:Er; cbn [bind] in E; try discriminate. injection E as <-.
      destruct (ran_read_acct _ _ _ _ _ _ _ Er) as (l & Ll & A). destruct (A fds0 ms0) as (B1 & B2).
      constructor; cbn [r_world r_lim r_live r_next]; auto.
      + intros o' g Hi. apply Old in Hi. lia.
      + exists (l0 ++ l), fds0, ms0. rewrite fds_after_app, F0, maps_after_app, M0, Ll, L0, app_assoc. auto.
    - destruct (rlookup (r_live e) o) as [f|] eqn:El; [|discriminate]. injection E as E.
      destruct (ran_delete dbg S os (r_world e) (r_lim e) f) as [[w' lim']| | |] eqn:Er; cbn [bind] in E; try discriminate. injection E as <-.
      pose proof (rlookup_in _ _ _ El) as Hin.
      destruct (ran_delete_acct _ _ _ _ _ Er) as (A1 & A2 & l & Ll & A). { intros fd nm ->. eauto. }
      pose proof (rdrop_perm _ _ _ Dup El) as P. pose proof (count_perm is_mmap _ _ P) as C1. pose proof (count_perm is_perm _ _ P) as C2. rewrite count_cons in C1, C2.
      destruct (owned_perm _ _ P) as (O1 & O2). destruct (owned_cons o f (rdrop (r_live e) o)) as (O3 & O4). rewrite O3 in O1. rewrite O4 in O2.
      destruct (A fds0 ms0 (owned_fds (rdrop (r_live e) o)) (owned_maps (rdrop (r_live e) o))) as (fds' & ms' & B1 & B2 & B3 & B4); [now rewrite PF|now rewrite PM|].
      assert (Dr : forall x, In x (rdrop (r_live e) o) -> In x (r_live e)) by (intros x; unfold rdrop; intros Hi; now apply filter_In in Hi).
      cbn [slots] in A1, A2.
      constructor; cbn [r_world r_lim r_live r_next].
      + apply (Permutation_map fst) in P. apply (Permutation_NoDup P) in Dup. cbn [map fst] in Dup. now apply NoDup_cons_iff in Dup.
      + intros o' g Hi. apply Dr, Old in Hi. lia.
      + intros o' fd nm Hi. apply Dr in Hi. eauto.
      + destruct (is_mmap f); lia.
      + destruct (is_perm f); lia.
      + intros H. pose proof (Mp H). lia.
      + intros H. pose proof (Pp H). lia.
      + destruct (is_mmap f); lia.
      + destruct (is_perm f); lia.
      + exists (l0 ++ l), fds', ms'. rewrite fds_after_app, F0, maps_after_app, M0, Ll, L0, app_assoc. auto.
  Qed.

  Lemma acct w0 lim0 e : rruns dbg strerror S os w0 lim0 e -> Acct w0 lim0 e.
  Proof.
    induction 1 as [|e c e' R IH E]; [|eapply acct_step; eauto].
    constructor; cbn [r_world r_lim r_live r_next map fst]; try lia; try easy.
    - constructor.
    - cbn. lia.
    - cbn. lia.
    - exists [], [], []. rewrite app_nil_r. repeat split; constructor.
  Qed.
End Acct.
