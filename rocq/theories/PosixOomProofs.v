(** PosixOomProofs.v -- accounting for PosixOomProps.v. *)
From Coq Require Import List Arith NArith ZArith Lia Bool Permutation.
From Verif Require Import Outcome Status MemEnv EnvUtil PosixOs PosixFd PosixWritable PosixRead PosixReadSpec PosixReadProofs PosixEnv PosixMisc PosixOom.
Import ListNotations.
Local Open Scope outcome_scope.

Section Proofs.
  Variable dbg : bool.
  Variable strerror : Z -> str.
  Variable S : Type.
  Variable os : S -> syscall -> S * answer.

  Ltac syscall w1 a L :=
    match goal with |- context [sys os ?w ?c] =>
      pose proof (sys_log os w c) as L; let wa := fresh "wa" in remember (sys os w c) as wa eqn:Ewa; clear Ewa; destruct wa as [w1 a]; cbn [fst snd] in L
    end.

  (** A call that returns is the ordinary call. *)
  Lemma new_random_x_ret fails w lim name w' lim' f st : new_random_x strerror S os fails w lim name = (w', lim', XRet (f, st)) ->
    new_random strerror S os w lim name = (w', lim', f, st).
  Proof.
    unfold new_random_x, new_random. destruct (sys os w (COpen name RdOnly)) as [w1 a].
    destruct (a_ret a <? 0)%Z; [destruct fails; [discriminate|]; intros E; now injection E as <- <- <- <-|].
    destruct (acquire (l_mmap lim)) as [l got]. destruct got; cbn [negb].
    - unfold get_file_size. destruct (sys os w1 (CStat name)) as [w2 b]. destruct (a_ret b =? 0)%Z; cbn [negb].
      + destruct (sys os w2 (CMmap (a_ret a) (a_val b))) as [w3 m]. destruct (a_ret m =? -1)%Z; cbn [negb]; (destruct fails; [discriminate|]); destruct (sys os w3 (CClose (a_ret a))) as [w4 c]; intros E; injection E as <- <- <- <-.
        * destruct (PosixError strerror name (a_errno m)) as [|cd m1 m2] eqn:Ep; [now apply error_not_ok in Ep|reflexivity].
        * reflexivity.
      + destruct fails; [discriminate|]. destruct (PosixError strerror name (a_errno b)) as [|cd m1 m2] eqn:Ep; [now apply error_not_ok in Ep|].
        destruct (sys os w2 (CClose (a_ret a))) as [w4 c]. intros E. now injection E as <- <- <- <-.
    - destruct fails; [discriminate|]. destruct (new_pread S os w1 (mk_limits l (l_fd lim)) name (a_ret a)) as [[w2 lim2] g]. intros E. now injection E as <- <- <- <-.
  Qed.
  Lemma new_random_x_false w lim name : exists w' lim' f st, new_random_x strerror S os false w lim name = (w', lim', XRet (f, st)).
  Proof.
    unfold new_random_x. destruct (sys os w (COpen name RdOnly)) as [w1 a].
    destruct (a_ret a <? 0)%Z; [eauto 6|]. destruct (acquire (l_mmap lim)) as [l got]. destruct got; cbn [negb].
    - destruct (sys os w1 (CStat name)) as [w2 b]. destruct (a_ret b =? 0)%Z; cbn [negb].
      + destruct (sys os w2 (CMmap (a_ret a) (a_val b))) as [w3 m]. destruct (a_ret m =? -1)%Z; cbn [negb]; destruct (sys os w3 (CClose (a_ret a))); eauto 6.
      + destruct (sys os w2 (CClose (a_ret a))); eauto 6.
    - destruct (new_pread S os w1 (mk_limits l (l_fd lim)) name (a_ret a)) as [[w2 lim2] g]. eauto 6.
  Qed.
  (** A call that throws. *)
  Lemma new_random_x_throw fails w lim name w' lim' k : new_random_x strerror S os fails w lim name = (w', lim', XThrow k) ->
    fails = true /\ (l_mmap lim' + Z.of_nat (k_slots k) = l_mmap lim)%Z /\ l_fd lim' = l_fd lim /\
    k_slots k <= 1 /\ length (k_fds k) <= 1 /\ length (k_maps k) <= k_slots k /\
    ((0 <= l_mmap lim)%Z -> (0 <= l_mmap lim')%Z) /\ ((l_mmap lim <= 0)%Z -> k_slots k = 0) /\
    exists l, w_log w' = w_log w ++ l /\ forall fds ms, fds_after fds l = Some (k_fds k ++ fds) /\ maps_after ms l = Some (k_maps k ++ ms).
  Proof.
    unfold new_random_x. syscall w1 a L1. destruct (Z.ltb_spec (a_ret a) 0) as [Hneg|Hpos].
    { destruct fails; [|discriminate]. intros E. injection E as <- <- <-. cbn [no_leak k_fds k_maps k_slots length app]. split; [reflexivity|]. repeat (split; [lia|]). eexists. split; [exact L1|]. intros. cbn [fds_after maps_after]. destruct (Z.leb_spec 0 (a_ret a)); [lia|]. split; reflexivity. }
    assert (Op : (0 <=? a_ret a)%Z = true) by now apply Z.leb_le.
    rewrite (acquire_eq (l_mmap lim)). destruct (Z.ltb_spec 0 (l_mmap lim)) as [Hm|Hm]; cbn [negb].
    - syscall w2 b L2. destruct (Z.eqb_spec (a_ret b) 0) as [Hb|Hb]; cbn [negb].
      + syscall w3 m L3. destruct (Z.eqb_spec (a_ret m) (-1)) as [Em|Em]; cbn [negb]; (destruct fails; [|destruct (sys os w3 (CClose (a_ret a))); discriminate]);
          intros E; injection E as <- <- <-; cbn [k_fds k_maps k_slots length app l_mmap l_fd]; (split; [reflexivity|]; repeat (split; [lia|]));
          (exists [(COpen name RdOnly, a); (CStat name, b); (CMmap (a_ret a) (a_val b), m)]; split; [rewrite L3, L2, L1, <- !app_assoc; reflexivity|]; intros; cbn [fds_after maps_after]; rewrite Op).
        * rewrite Em. cbn [Z.eqb Pos.eqb]. split; reflexivity.
        * apply Z.eqb_neq in Em. rewrite Em. split; reflexivity.
      + destruct fails; [|destruct (sys os w2 (CClose (a_ret a))); discriminate].
        intros E; injection E as <- <- <-; cbn [k_fds k_maps k_slots length app l_mmap l_fd]; (split; [reflexivity|]; repeat (split; [lia|])).
        exists [(COpen name RdOnly, a); (CStat name, b)]. split; [rewrite L2, L1, <- !app_assoc; reflexivity|]; intros; cbn [fds_after maps_after]; rewrite Op. split; reflexivity.
    - destruct fails; [|destruct (new_pread S os w1 (mk_limits (l_mmap lim) (l_fd lim)) name (a_ret a)) as [[w2 lim2] g]; discriminate].
      intros E; injection E as <- <- <-; cbn [k_fds k_maps k_slots length app l_mmap l_fd]; (split; [reflexivity|]; repeat (split; [lia|])).
      exists [(COpen name RdOnly, a)]. split; [exact L1|]. intros; cbn [fds_after maps_after]; rewrite Op. split; reflexivity.
  Qed.

  Lemma ran_read_x_ret fails w f off n w' r : ran_read_x dbg strerror S os fails w f off n = Ret (w', XRet r) ->
    ran_read dbg strerror S os w f off n = Ret (w', fst r, snd r).
  Proof.
    destruct f as [fd nm|nm|b len nm]; cbn [ran_read_x ran_read].
    - destruct (assert_ dbg (negb (fd =? -1)%Z)) as [[]| | |]; cbn [bind]; try discriminate. destruct (sys os w _) as [w1 a]. destruct (_ <? _)%Z; [discriminate|].
      destruct (_ && _); [discriminate|]. intros E. injection E as <- <-. reflexivity.
    - destruct (sys os w _) as [w1 o]. destruct (_ <? _)%Z; [destruct fails; [discriminate|]; intros E; injection E as <- <-; reflexivity|].
      destruct (assert_ dbg (negb (a_ret o =? -1)%Z)) as [[]| | |]; cbn [bind]; try discriminate. destruct (sys os w1 _) as [w2 a]. destruct (Z.of_N n <? a_ret a)%Z; [discriminate|].
      destruct (_ && _); [discriminate|]. destruct (sys os w2 _) as [w3 c]. intros E. injection E as <- <-. reflexivity.
    - destruct (_ <? _)%N; [destruct fails; [discriminate|]|]; intros E; injection E as <- <-; reflexivity.
  Qed.
  Lemma ran_read_x_throw fails w f off n w' k : ran_read_x dbg strerror S os fails w f off n = Ret (w', XThrow k) ->
    fails = true /\ k_slots k = 0 /\ k_maps k = [] /\ length (k_fds k) <= 1 /\
    exists l, w_log w' = w_log w ++ l /\ forall fds ms, fds_after fds l = Some (k_fds k ++ fds) /\ maps_after ms l = Some ms.
  Proof.
    destruct f as [fd nm|nm|b len nm]; cbn [ran_read_x].
    - intros E. apply assert_cases in E. revert E. syscall w1 a L1. destruct (_ <? _)%Z; [discriminate|].
      destruct fails; [|rewrite andb_false_r; discriminate]. destruct (a_ret a <? 0)%Z; cbn [andb]; [|discriminate]. intros E. injection E as <- <-. cbn. repeat (split; [lia||reflexivity|]).
      eexists. split; [exact L1|]. intros; split; reflexivity.
    - syscall w1 o L1. destruct (Z.ltb_spec (a_ret o) 0) as [H|H].
      + destruct fails; [|discriminate]. intros E. injection E as <- <-. cbn [no_leak k_slots k_maps k_fds length app]. repeat (split; [lia||reflexivity|]).
        eexists. split; [exact L1|]. intros. cbn [fds_after maps_after]. destruct (Z.leb_spec 0 (a_ret o)); [lia|]. split; reflexivity.
      + intros E. apply assert_cases in E. revert E. syscall w2 a L2. destruct (Z.of_N n <? a_ret a)%Z; [discriminate|]. destruct fails.
        * destruct (a_ret a <? 0)%Z; cbn [andb].
          -- intros E. injection E as <- <-. cbn [k_slots k_maps k_fds length app]. repeat (split; [lia||reflexivity|]).
             exists [(COpen nm RdOnly, o); (CPread (a_ret o) n (off_t off), a)]. split; [rewrite L2, L1, <- !app_assoc; reflexivity|]. intros. cbn [fds_after maps_after].
             destruct (Z.leb_spec 0 (a_ret o)); [|lia]. split; reflexivity.
          -- intros E. apply assert_cases in E. revert E. destruct (sys os w2 _) as [w3 c]. discriminate.
        * rewrite andb_false_r. intros E. apply assert_cases in E. revert E. destruct (sys os w2 _) as [w3 c]. discriminate.
    - destruct (_ <? _)%N; [destruct fails|]; try discriminate. intros E; injection E as <- <-. cbn. repeat (split; [lia||reflexivity|]). exists []. split; [now rewrite app_nil_r|]. intros; split; reflexivity.
  Qed.

  Record XAcct (w0 : world S) (lim0 : limits) (e : xenv S) : Prop := {
    xa_dup : NoDup (map fst (r_live (x_r e)));
    xa_old : forall o f, In (o, f) (r_live (x_r e)) -> o < r_next (x_r e);
    xa_fd : forall o fd nm, In (o, RPerm fd nm) (r_live (x_r e)) -> (0 <= fd)%Z;
    xa_mmap : (l_mmap (r_lim (x_r e)) + Z.of_nat (count is_mmap (r_live (x_r e))) + Z.of_nat (k_slots (x_leak e)) = l_mmap lim0)%Z;
    xa_perm : (l_fd (r_lim (x_r e)) + Z.of_nat (count is_perm (r_live (x_r e))) = l_fd lim0)%Z;
    xa_mmap_pos : (l_mmap lim0 < 0)%Z -> count is_mmap (r_live (x_r e)) = 0 /\ k_slots (x_leak e) = 0;
    xa_perm_pos : (l_fd lim0 < 0)%Z -> count is_perm (r_live (x_r e)) = 0;
    xa_mmap_lim : (0 <= l_mmap lim0)%Z -> (0 <= l_mmap (r_lim (x_r e)))%Z;
    xa_perm_lim : (0 <= l_fd lim0)%Z -> (0 <= l_fd (r_lim (x_r e)))%Z;
    xa_leak : length (k_fds (x_leak e)) <= x_throws e /\ length (k_maps (x_leak e)) <= k_slots (x_leak e) /\ k_slots (x_leak e) <= x_throws e;
    xa_log : exists l fds ms, w_log (r_world (x_r e)) = w_log w0 ++ l /\
      fds_after [] l = Some fds /\ Permutation fds (owned_fds (r_live (x_r e)) ++ k_fds (x_leak e)) /\
      maps_after [] l = Some ms /\ Permutation ms (owned_maps (r_live (x_r e)) ++ k_maps (x_leak e))
  }.

  Lemma perm_mid {A} (k o x : list A) : Permutation (k ++ o ++ x) (o ++ k ++ x).
  Proof. rewrite !app_assoc. apply Permutation_app_tail, Permutation_app_comm. Qed.

  Lemma xacct_step w0 lim0 e c e' : XAcct w0 lim0 e -> xstep dbg strerror S os e c = Some (Ret e') -> XAcct w0 lim0 e'.
  Proof.
    intros [Dup Old Fd Mm Pm Mp Pp Ml Pl (K1 & K2 & K3) (l0 & fds0 & ms0 & L0 & F0 & PF & M0 & PM)] E. destruct c as [name fails|o off n fails|o]; cbn [xstep] in E.
    - destruct (new_random_x strerror S os fails (r_world (x_r e)) (r_lim (x_r e)) name) as [[w' lim'] [[f st]|k]] eqn:En; injection E as <-.
      + apply new_random_x_ret in En.
        destruct (new_random_acct _ _ _ _ _ _ _ _ _ _ En) as (A1 & A2 & A3 & A4 & A5 & A6 & _ & A7 & l & Ll & A8). destruct (A8 fds0 ms0) as (B1 & B2).
        assert (Lg : forall live, owned_fds live = ofds f ++ owned_fds (r_live (x_r e)) -> owned_maps live = omaps f ++ owned_maps (r_live (x_r e)) ->
          exists l fds ms, w_log w' = w_log w0 ++ l /\ fds_after [] l = Some fds /\ Permutation fds (owned_fds live ++ k_fds (x_leak e)) /\
            maps_after [] l = Some ms /\ Permutation ms (owned_maps live ++ k_maps (x_leak e))).
        { intros live H1 H2. exists (l0 ++ l), (ofds f ++ fds0), (omaps f ++ ms0). rewrite fds_after_app, F0, maps_after_app, M0, Ll, L0, app_assoc, H1, H2, <- !app_assoc.
          repeat split; auto; now apply Permutation_app_head. }
        destruct f as [f|]; constructor; cbn [x_r x_leak x_throws r_world r_lim r_live r_next]; auto.
        * cbn [map fst]. constructor; [|exact Dup]. intros Hi. apply in_map_iff in Hi as ([o g] & Eo & Hi). cbn in Eo. apply Old in Hi. lia.
        * intros o g [Hi|Hi]; [injection Hi; lia|]. apply Old in Hi. lia.
        * intros o fd nm [Hi|Hi]; [injection Hi as _ ->; eapply A7; reflexivity|eauto].
        * rewrite count_cons. cbn [slots] in A1. destruct (is_mmap f); lia.
        * rewrite count_cons. cbn [slots] in A2. destruct (is_perm f); lia.
        * intros H. rewrite count_cons. destruct (Mp H) as (Q & Q'). cbn [slots] in A5. split; [|exact Q']. destruct (is_mmap f); lia.
        * intros H. rewrite count_cons. pose proof (Pp H) as Q. cbn [slots] in A6. destruct (is_perm f); lia.
        * intros o g Hi. apply Old in Hi. lia.
        * cbn [slots] in A1. lia.
        * cbn [slots] in A2. lia.
      + destruct (new_random_x_throw _ _ _ _ _ _ _ En) as (_ & A1 & A2 & A3 & A4 & A5 & A6 & A7 & l & Ll & A8). destruct (A8 fds0 ms0) as (B1 & B2).
        constructor; cbn [threw x_r x_leak x_throws r_world r_lim r_live r_next leak_app k_fds k_maps k_slots]; auto.
        * intros o g Hi. apply Old in Hi. lia.
        * lia.
        * lia.
        * intros H. destruct (Mp H) as (Q & Q'). split; [exact Q|]. lia.
        * lia.
        * rewrite !app_length. lia.
        * exists (l0 ++ l), (k_fds k ++ fds0), (k_maps k ++ ms0). rewrite fds_after_app, F0, maps_after_app, M0, Ll, L0, app_assoc. repeat split; auto.
          -- rewrite PF. apply perm_mid.
          -- rewrite PM. apply perm_mid.
    - destruct (rlookup (r_live (x_r e)) o) as [f|] eqn:El; [|discriminate]. injection E as E.
      destruct (ran_read_x dbg strerror S os fails (r_world (x_r e)) f off n) as [[w' q]| | |] eqn:Er; cbn [bind] in E; try discriminate. destruct q as [r|k]; injection E as <-.
      + apply ran_read_x_ret in Er. destruct (ran_read_acct _ _ _ _ _ _ _ _ _ _ _ Er) as (l & Ll & A). destruct (A fds0 ms0) as (B1 & B2).
        constructor; cbn [x_r x_leak x_throws r_world r_lim r_live r_next]; auto.
        * intros o' g Hi. apply Old in Hi. lia.
        * exists (l0 ++ l), fds0, ms0. rewrite fds_after_app, F0, maps_after_app, M0, Ll, L0, app_assoc. auto.
      + destruct (ran_read_x_throw _ _ _ _ _ _ _ Er) as (_ & A1 & A2 & A3 & l & Ll & A). destruct (A fds0 ms0) as (B1 & B2).
        constructor; cbn [threw x_r x_leak x_throws r_world r_lim r_live r_next leak_app k_fds k_maps k_slots]; auto.
        * intros o' g Hi. apply Old in Hi. lia.
        * lia.
        * intros H. destruct (Mp H). split; [assumption|lia].
        * rewrite !app_length, A2. cbn [length]. lia.
        * exists (l0 ++ l), (k_fds k ++ fds0), ms0. rewrite fds_after_app, F0, maps_after_app, M0, Ll, L0, app_assoc, A2. cbn [app]. repeat split; auto.
          rewrite PF. apply perm_mid.
    - destruct (rlookup (r_live (x_r e)) o) as [f|] eqn:El; [|discriminate]. injection E as E.
      destruct (ran_delete dbg S os (r_world (x_r e)) (r_lim (x_r e)) f) as [[w' lim']| | |] eqn:Er; cbn [bind] in E; try discriminate. injection E as <-.
      pose proof (rlookup_in _ _ _ El) as Hin.
      destruct (ran_delete_acct _ _ _ _ _ _ _ _ Er) as (A1 & A2 & l & Ll & A). { intros fd nm ->. eauto. }
      pose proof (rdrop_perm _ _ _ Dup El) as P. pose proof (count_perm is_mmap _ _ P) as C1. pose proof (count_perm is_perm _ _ P) as C2. rewrite count_cons in C1, C2.
      destruct (owned_perm _ _ P) as (O1 & O2). destruct (owned_cons o f (rdrop (r_live (x_r e)) o)) as (O3 & O4). rewrite O3 in O1. rewrite O4 in O2.
      destruct (A fds0 ms0 (owned_fds (rdrop (r_live (x_r e)) o) ++ k_fds (x_leak e)) (owned_maps (rdrop (r_live (x_r e)) o) ++ k_maps (x_leak e))) as (fds' & ms' & B1 & B2 & B3 & B4);
        [rewrite PF, O1, <- app_assoc; reflexivity|rewrite PM, O2, <- app_assoc; reflexivity|].
      assert (Dr : forall x, In x (rdrop (r_live (x_r e)) o) -> In x (r_live (x_r e))) by (intros x; unfold rdrop; intros Hi; now apply filter_In in Hi).
      cbn [slots] in A1, A2.
      constructor; cbn [x_r x_leak x_throws r_world r_lim r_live r_next]; auto.
      + apply (Permutation_map fst) in P. apply (Permutation_NoDup P) in Dup. cbn [map fst] in Dup. now apply NoDup_cons_iff in Dup.
      + intros o' g Hi. apply Dr, Old in Hi. lia.
      + intros o' fd nm Hi. apply Dr in Hi. eauto.
      + destruct (is_mmap f); lia.
      + destruct (is_perm f); lia.
      + intros H. destruct (Mp H). split; [lia|assumption].
      + intros H. pose proof (Pp H). lia.
      + destruct (is_mmap f); lia.
      + destruct (is_perm f); lia.
      + exists (l0 ++ l), fds', ms'. rewrite fds_after_app, F0, maps_after_app, M0, Ll, L0, app_assoc. auto.
  Qed.
  Lemma xacct w0 lim0 cs e : xsteps dbg strerror S os (xstart S w0 lim0) cs e -> XAcct w0 lim0 e.
  Proof.
    assert (G : forall cs e1 e2, xsteps dbg strerror S os e1 cs e2 -> XAcct w0 lim0 e1 -> XAcct w0 lim0 e2).
    { clear. intros cs e1 e2 H. induction H as [e|e c e1 cs e2 E H IH]; intros A; [exact A|]. apply IH. eapply xacct_step; eauto. }
    intros H. apply (G _ _ _ H). constructor; cbn [xstart x_r x_leak x_throws no_leak k_fds k_maps k_slots r_world r_lim r_live r_next map fst]; try easy; cbn; try lia; try easy.
    - constructor.
    - exists [], [], []. rewrite app_nil_r. repeat split; constructor.
  Qed.

  (** Leaks stay. *)
  Lemma leak_grows cs e1 e2 : xsteps dbg strerror S os e1 cs e2 -> exists k, x_leak e2 = leak_app k (x_leak e1) /\ x_throws e1 <= x_throws e2.
  Proof.
    induction 1 as [e|e c e1 cs e2 E H (k & IH & T)]; [exists no_leak; split; [destruct (x_leak e); reflexivity|lia]|].
    assert (Q : exists k1, x_leak e1 = leak_app k1 (x_leak e) /\ x_throws e <= x_throws e1).
    { destruct c as [name fails|o off n fails|o]; cbn [xstep] in E.
      - destruct (new_random_x strerror S os fails _ _ _) as [[w' lim'] [[f st]|k1]]; injection E as <-; cbn [threw x_leak x_throws]; [exists no_leak; split; [destruct (x_leak e); reflexivity|lia]|exists k1; split; [reflexivity|lia]].
      - destruct (rlookup _ _); [|discriminate]. injection E as E. destruct (ran_read_x dbg strerror S os fails _ _ _ _) as [[w' [q|k1]]| | |]; cbn [bind] in E; try discriminate; injection E as <-; cbn [threw x_leak x_throws];
          [exists no_leak; split; [destruct (x_leak e); reflexivity|lia]|exists k1; split; [reflexivity|lia]].
      - destruct (rlookup _ _); [|discriminate]. injection E as E. destruct (ran_delete dbg S os _ _ _) as [[w' lim']| | |]; cbn [bind] in E; try discriminate. injection E as <-. exists no_leak; split; [destruct (x_leak e); reflexivity|cbn [x_throws]; lia]. }
    destruct Q as (k1 & Q & Qt). exists (leak_app k k1). rewrite IH, Q. split; [|lia]. unfold leak_app. cbn [k_fds k_maps k_slots]. rewrite !app_assoc, Nat.add_assoc. reflexivity.
  Qed.
End Proofs.
