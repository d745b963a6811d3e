(** PosixReadProps.v -- property theorems C51 (POSIX part), C60, C63, C70: reading
    files through the POSIX environment. *)
From Coq Require Import List Arith NArith ZArith Lia Bool Permutation.
From Verif Require Import Outcome Heap Status MemEnv MemEnvMem PosixOs PosixFd PosixRead EnvUtil EnvUtilSpec EnvUtilProofs PosixReadSpec PosixReadProofs.
Import ListNotations.
Local Open Scope outcome_scope.

(** ** C70 *)
(** Any calls on a sequential file, on a kernel serving [content]. *)
Theorem C70_sequential_file_delivers :
  forall S strerror (os : S -> syscall -> S * answer) fuel w0 name w1 f cs w2 rs l content p,
    new_sequential strerror S os w0 name = (w1, Some f, SOk) ->
    srun strerror S os fuel w1 f cs = Ret (w2, rs) -> w_log w2 = w_log w1 ++ l ->
    plays content (sq_fd f) 0 l p -> delivers content 0 cs rs p.
Proof.
  intros S strerror os fuel w0 name w1 f cs w2 rs l content p _ E L P. apply (srun_delivers strerror S os content fuel f cs w1 w2 rs l); auto; lia.
Qed.
Print Assumptions C70_sequential_file_delivers.

(** Without Skip, the data read is the file from its start. *)
Lemma delivers_prefix content : forall cs p rs p', delivers content p cs rs p' -> (forall n, ~ In (SqSkip n) cs) -> (0 <= p <= Z.of_nat (length content))%Z ->
  (p <= p' <= Z.of_nat (length content))%Z /\ concat (map snd rs) = firstn (Z.to_nat (p' - p)) (skipn (Z.to_nat p) content).
Proof.
  intros cs p rs p' D. induction D as [p|p n d cs rs p' H1 H2 H3 D IH|p n st cs rs p' H1 D IH|p n cs rs p' H1 D IH|p n st cs rs p' H1 D IH]; intros Hs Hp.
  - rewrite Z.sub_diag. split; [lia|reflexivity].
  - assert (Hl : length d <= length content - Z.to_nat p).
    { rewrite H1 at 1. rewrite firstn_length, skipn_length. lia. }
    destruct IH as (I1 & I2); [intros k Hk; apply (Hs k); right; exact Hk|lia|].
    split; [lia|]. cbn [map concat snd]. rewrite I2. rewrite H1 at 1.
    replace (Z.to_nat (p' - p)) with (length d + Z.to_nat (p' - (p + Z.of_nat (length d)))) by lia.
    rewrite <- (firstn_skipn (length d) (skipn (Z.to_nat p) content)) at 2. rewrite firstn_app, firstn_firstn.
    rewrite firstn_length, skipn_length. replace (Nat.min (length d) (length content - Z.to_nat p)) with (length d) by lia.
    f_equal.
    + f_equal. lia.
    + f_equal; [lia|]. rewrite skipn_add. f_equal. lia.
  - destruct IH as (I1 & I2); [intros k Hk; apply (Hs k); right; exact Hk|lia|]. split; [lia|]. exact I2.
  - exfalso. apply (Hs n). left. reflexivity.
  - exfalso. apply (Hs n). left. reflexivity.
Qed.
Theorem C70_reads_from_the_start :
  forall S strerror (os : S -> syscall -> S * answer) fuel w0 name w1 f cs w2 rs l content p,
    new_sequential strerror S os w0 name = (w1, Some f, SOk) ->
    srun strerror S os fuel w1 f cs = Ret (w2, rs) -> w_log w2 = w_log w1 ++ l ->
    plays content (sq_fd f) 0 l p -> (forall n, ~ In (SqSkip n) cs) ->
    concat (map snd rs) = firstn (Z.to_nat p) content.
Proof.
  intros S strerror os fuel w0 name w1 f cs w2 rs l content p En E L P Hs.
  pose proof (C70_sequential_file_delivers _ _ _ _ _ _ _ _ _ _ _ _ _ _ En E L P) as D.
  destruct (delivers_prefix content cs 0 rs p D Hs ltac:(lia)) as (_ & H). rewrite H, Z.sub_0_r. reflexivity.
Qed.
Print Assumptions C70_reads_from_the_start.

(** The scratch buffer is never overrun (read() puts at most n bytes there). *)
Theorem C70_scratch_not_overrun :
  forall S strerror (os : S -> syscall -> S * answer) fuel w f cs,
    (forall s fd n, (a_ret (snd (os s (CRead fd n))) <= Z.of_N n)%Z) ->
    srun strerror S os fuel w f cs <> UB /\ srun strerror S os fuel w f cs <> AssertFail.
Proof.
  intros S strerror os fuel w f cs OK. revert w.
  assert (R : forall fu w n, seq_read strerror S os fu w f n = OutOfFuel \/ exists x, seq_read strerror S os fu w f n = Ret x).
  { induction fu as [|fu IH]; intros w n; cbn [seq_read]; [auto|]. pose proof (OK (w_st w) (sq_fd f) n) as K.
    unfold sys. cbv zeta beta iota. destruct (a_ret _ <? 0)%Z; [destruct (a_errno _ =? EINTR)%Z; [apply IH|eauto]|].
    destruct (Z.ltb_spec (Z.of_N n) (a_ret (snd (os (w_st w) (CRead (sq_fd f) n))))); [lia|eauto]. }
  induction cs as [|[n|n] cs IH]; intros w; cbn [srun]; [split; discriminate| |].
  - destruct (R fuel w n) as [->|([[w1 st] r] & ->)]; cbn [bind]; [split; discriminate|].
    destruct (IH w1) as (I1 & I2). destruct (srun strerror S os fuel w1 f cs) as [[? ?]| | |]; cbn [bind]; split; congruence.
  - destruct (seq_skip strerror S os w f n) as [w1 st].
    destruct (IH w1) as (I1 & I2). destruct (srun strerror S os fuel w1 f cs) as [[? ?]| | |]; cbn [bind]; split; congruence.
Qed.
Print Assumptions C70_scratch_not_overrun.

(** ReadFileToString on this environment: the calls are open, reads, close; on a
    kernel serving [content] the string is what was read, all of it when the
    status is OK. *)
Theorem C70_read_file_to_string :
  forall S strerror (os : S -> syscall -> S * answer) fuel fuel2 w name w' fs tr st data,
    read_file (world S * list seqfile) (posix_io strerror os fuel) fuel2 (w, []) name = Ret ((w', fs), tr, st, data) ->
    exists a l, w_log w' = w_log w ++ (COpen name RdOnly, a) :: l /\
      ((a_ret a < 0)%Z -> l = [] /\ data = [] /\ st = PosixError strerror name (a_errno a)) /\
      ((0 <= a_ret a)%Z -> exists l' c, l = l' ++ [(CClose (a_ret a), c)] /\
         forall content p, plays content (a_ret a) 0 l' p ->
           (0 <= p <= Z.of_nat (length content))%Z /\ data = firstn (Z.to_nat p) content /\ (st = SOk -> data = content)).
Proof.
  intros S strerror os fuel fuel2 w name w' fs tr st data. unfold read_file, call. cbn [posix_io]. unfold new_sequential.
  pose proof (sys_log os w (COpen name RdOnly)) as L0. remember (sys os w (COpen name RdOnly)) as wa eqn:Ewa. clear Ewa. destruct wa as [w1 a]. cbn [fst snd] in L0.
  destruct (Z.ltb_spec (a_ret a) 0) as [Hneg|Hpos]; cbn [bind fst snd io_status io_ptr ok negb app].
  - assert (Ek : ok (PosixError strerror name (a_errno a)) = false).
    { unfold PosixError. destruct (_ =? _)%Z; reflexivity. }
    rewrite Ek. cbn [negb del bind]. intros E. injection E as <- <- <- <- <-. exists a, []. rewrite L0. split; [reflexivity|]. split; [auto|]. intros; lia.
  - unfold EnvUtil.deref. cbn [bind length]. set (f := mk_seq (a_ret a) name) in *.
    destruct (read_loop (world S * list seqfile) (posix_io strerror os fuel) fuel2 (w1, [f]) _ 0 []) as [[[[[w2 fs2] tr2] st2] data2]| | |] eqn:El; cbn [bind]; try discriminate.
    unfold del, call. cbn [posix_io].
    assert (Loop : forall fu w1 tr0 d0 w2 fs2 tr2 st2 data2,
      read_loop (world S * list seqfile) (posix_io strerror os fuel) fu (w1, [f]) tr0 0 d0 = Ret ((w2, fs2), tr2, st2, data2) ->
      fs2 = [f] /\ exists l, w_log w2 = w_log w1 ++ l /\ forall content p p', plays content (a_ret a) p l p' -> (0 <= p <= Z.of_nat (length content))%Z -> d0 = firstn (Z.to_nat p) content ->
         (0 <= p' <= Z.of_nat (length content))%Z /\ data2 = firstn (Z.to_nat p') content /\ (st2 = SOk -> data2 = content)).
    { clear. induction fu as [|fu IH]; intros w1 tr0 d0 w2 fs2 tr2 st2 data2 E; cbn [read_loop] in E; [discriminate|].
      unfold call in E. cbn [posix_io nth_error] in E.
      destruct (seq_read strerror S os fuel w1 f 8192) as [[[w3 st] r]| | |] eqn:Es; cbn [bind fst snd] in E; try discriminate.
      cbn [io_status io_data] in E. destruct (seq_read_log _ _ _ _ _ _ _ _ _ _ Es) as (l1 & L1 & _).
      assert (Dl := fun content => seq_read_delivers strerror S os content fuel w1 f 8192 w3 st r l1).
      destruct (ok st) eqn:Eo; cbn [negb] in E.
      - apply ok_SOk in Eo. subst st. destruct r as [|d|]; cbn [app] in E.
        + exfalso. (* an OK read assigns *)
          clear - Es. revert w1 Es. induction fuel as [|fu IH]; intros w1 Es; cbn [seq_read] in Es; [discriminate|]. unfold sys in Es. cbv zeta beta iota in Es.
          destruct (a_ret _ <? 0)%Z; [destruct (a_errno _ =? EINTR)%Z; [now apply IH in Es|]|destruct (_ <? _)%Z; discriminate].
          injection Es as _ H. now apply error_not_ok in H.
        + destruct d as [|b d].
          * injection E as <- <- <- <- <-. rewrite app_nil_r. split; [reflexivity|]. exists l1. split; [exact L1|]. intros content p p' P Hp Hd.
            destruct (Dl content p p' Es L1 P) as [(H & _)|(_ & d & Q & H1 & H2 & H3 & ->)]; [congruence|]. injection Q as <-.
            cbn [length Z.of_nat]. rewrite Z.add_0_r. split; [lia|]. split; [exact Hd|]. intros _. destruct (H3 eq_refl) as [H|H]; [discriminate|].
            rewrite Hd. apply firstn_all2. lia.
          * destruct (IH _ _ _ _ _ _ _ _ E) as (-> & l2 & L2 & Q). split; [reflexivity|]. exists (l1 ++ l2). split; [rewrite L2, L1, app_assoc; reflexivity|].
            intros content p p' P Hp Hd. destruct (plays_app content (a_ret a) l1 l2 p p' P) as (q & P1 & P2).
            destruct (Dl content p q Es L1 P1) as [(H & _)|(_ & d' & Q' & H1 & H2 & H3 & ->)]; [congruence|]. injection Q' as <-.
            assert (Hl : length (b :: d) <= length content - Z.to_nat p).
            { rewrite H1 at 1. rewrite firstn_length, skipn_length. lia. }
            apply (Q content (p + Z.of_nat (length (b :: d)))%Z p' P2); [lia|].
            rewrite Hd, Z2Nat.inj_add, Nat2Z.id by lia. apply firstn_extend; [lia|exact H1].
        + exfalso. clear - Es. revert w1 Es. induction fuel as [|fu IH]; intros w1 Es; cbn [seq_read] in Es; [discriminate|]. unfold sys in Es. cbv zeta beta iota in Es.
          destruct (a_ret _ <? 0)%Z; [destruct (a_errno _ =? EINTR)%Z; [now apply IH in Es|discriminate]|destruct (_ <? _)%Z; discriminate].
      - injection E as <- <- <- <- <-. split; [reflexivity|]. exists l1. split; [exact L1|]. intros content p p' P Hp Hd.
        destruct (Dl content p p' Es L1 P) as [(H & _ & ->)|(H & _)]; [|subst st; discriminate Eo]. split; [lia|]. split; [exact Hd|]. intros H2. now destruct H. }
    destruct (Loop _ _ _ _ _ _ _ _ _ El) as (-> & l & L1 & Q). cbn [nth_error bind fst snd]. intros E. injection E as <- <- <- <- <-.
    unfold seq_delete. pose proof (sys_log os w2 (CClose (sq_fd f))) as L2.
    exists a, (l ++ [(CClose (sq_fd f), snd (sys os w2 (CClose (sq_fd f))))]). split; [rewrite L2, L1, L0, <- !app_assoc; reflexivity|].
    split; [intros; lia|]. intros _. exists l. eexists. split; [reflexivity|]. intros content p P. apply (Q content 0%Z p P); [lia|reflexivity].
Qed.
Print Assumptions C70_read_file_to_string.

(** With no errors it does return, with OK and the whole file. *)
Theorem C70_read_file_to_string_total :
  forall S strerror (os : S -> syscall -> S * answer) fuel fuel2 w name content pos,
    healthy os name content pos -> 0 < fuel -> length content < fuel2 ->
    exists w' fs tr, read_file (world S * list seqfile) (posix_io strerror os fuel) fuel2 (w, []) name = Ret ((w', fs), tr, SOk, content).
Proof.
  intros S strerror os fuel fuel2 w name content pos [Ho Hr] Hf Hf2. destruct fuel as [|fuel]; [lia|].
  unfold read_file, call. cbn [posix_io]. unfold new_sequential, sys. cbv zeta beta iota.
  destruct (Ho (w_st w)) as (O1 & O2). destruct (Z.ltb_spec (a_ret (snd (os (w_st w) (COpen name RdOnly)))) 0) as [H|H]; [lia|clear H].
  cbn [bind fst snd io_status io_ptr ok negb app]. unfold EnvUtil.deref. cbn [bind length].
  set (f := mk_seq (a_ret (snd (os (w_st w) (COpen name RdOnly)))) name). set (w1 := mk_world _ _).
  assert (Loop : forall fu w1 tr0, length content - pos (w_st w1) < fu -> pos (w_st w1) <= length content ->
    exists w2 tr2, read_loop (world S * list seqfile) (posix_io strerror os (Datatypes.S fuel)) fu (w1, [f]) tr0 0 (firstn (pos (w_st w1)) content) =
      Ret ((w2, [f]), tr2, SOk, content)).
  { clear - Hr. induction fu as [|fu IH]; intros w1 tr0 Hl Hp; [lia|]. cbn [read_loop]. unfold call. cbn [posix_io nth_error seq_read]. unfold sys. cbv zeta beta iota.
    destruct (Hr (w_st w1) (sq_fd f) 8192%N ltac:(lia)) as (k & K1 & K2 & K3 & K4 & K5 & K6). rewrite K5.
    destruct (Z.ltb_spec (Z.of_nat k) 0) as [H|_]; [lia|]. destruct (Z.ltb_spec (Z.of_N 8192) (Z.of_nat k)) as [H|_]; [lia|].
    cbn [bind fst snd io_status io_data ok negb]. rewrite Nat2Z.id, K4, firstn_firstn, Nat.min_id.
    destruct k as [|k].
    - cbn [firstn]. rewrite app_nil_r, firstn_all2 by auto. eauto.
    - destruct (firstn (Datatypes.S k) (skipn (pos (w_st w1)) content)) as [|b d] eqn:Ed.
      + exfalso. apply (f_equal (@length N)) in Ed. rewrite firstn_length, skipn_length in Ed. cbn [length] in Ed. lia.
      + assert (Lb : length (b :: d) = Datatypes.S k). { rewrite <- Ed, firstn_length, skipn_length. lia. }
        rewrite (firstn_extend content (b :: d) (pos (w_st w1))) by (rewrite ?Lb; auto; lia). rewrite Lb, <- K6.
        match goal with |- context [mk_world ?s ?l] => pose (w2 := mk_world s l) end.
        apply (IH w2); unfold w2; cbn [w_st]; lia. }
  assert (Ew : pos (w_st w1) = 0) by exact O2.
  pose proof (fun tr => Loop fuel2 w1 tr) as Q. rewrite Ew in Q. cbn [firstn] in Q.
  edestruct Q as (w2 & tr2 & ->); [lia|lia|]. cbn [bind]. unfold del, call. cbn [posix_io nth_error bind fst snd]. eauto.
Qed.
Print Assumptions C70_read_file_to_string_total.

(** A kernel as in the theorems. *)
Example C70_example :
  let r := srun (fun _ => []) nat (toy_os [1; 2; 3]%N) 5 (mk_world 0 []) (mk_seq 3 []) [SqRead 7; SqRead 7; SqRead 7] in
  match r with
  | Ret (w, rs) => rs = [(SOk, [1; 2]%N); (SOk, [3%N]); (SOk, [])] /\ plays [1; 2; 3]%N 3 0 (w_log w) 3
  | _ => False
  end.
Proof.
  vm_compute. split; [reflexivity|].
  repeat (eapply pl_read; [reflexivity|vm_compute; discriminate|reflexivity|try discriminate|]).
  - intros _. right. vm_compute. discriminate.
  - apply pl_nil.
Qed.
Example C70_healthy : healthy (toy_os [1; 2; 3]%N) [] [1; 2; 3]%N (fun s => Nat.min s 3).
Proof.
  constructor.
  - intros s. vm_compute. split; [discriminate|reflexivity].
  - intros s fd n Hn. set (d := firstn (N.to_nat (N.min n 2)) (skipn s [1; 2; 3]%N)). exists (length d).
    assert (Ld : length d = Nat.min (N.to_nat (N.min n 2)) (3 - s)) by (unfold d; rewrite firstn_length, skipn_length; reflexivity).
    cbn [length]. repeat split; try lia.
    + cbn [toy_os snd a_data]. fold d.
      assert (Hs : skipn (Nat.min s 3) [1; 2; 3]%N = skipn s [1; 2; 3]%N).
      { destruct (Nat.le_gt_cases s 3) as [H|H]; [now rewrite Nat.min_l by lia|]. rewrite Nat.min_r by lia. rewrite (skipn_all2 (n := s)) by (cbn; lia). reflexivity. }
      rewrite Hs. unfold d at 2. rewrite firstn_length, skipn_length.
      unfold d. rewrite <- (firstn_all (firstn _ _)) at 1. rewrite firstn_firstn, firstn_length, skipn_length. f_equal. lia.
    + cbn [toy_os fst]. fold d. rewrite Ld. cbn [length]. lia.
Qed.

(** ** C51, POSIX *)
Theorem C51_posix_skip :
  forall S strerror (os : S -> syscall -> S * answer) fuel w0 name w1 f cs w2 rs l content p n k w3 st st2 d e l' p',
    new_sequential strerror S os w0 name = (w1, Some f, SOk) ->
    srun strerror S os fuel w1 f cs = Ret (w2, rs) -> w_log w2 = w_log w1 ++ l -> plays content (sq_fd f) 0 l p ->
    srun strerror S os fuel w2 f [SqSkip n; SqRead k] = Ret (w3, [(st, e); (st2, d)]) -> w_log w3 = w_log w2 ++ l' -> plays content (sq_fd f) p l' p' ->
    (n < 2 ^ 63)%N -> st = SOk -> st2 = SOk ->
    d = firstn (length d) (skipn (Z.to_nat p + N.to_nat n) content) /\ (N.of_nat (length d) <= k)%N /\
    (d = [] -> k = 0%N \/ length content <= Z.to_nat p + N.to_nat n).
Proof.
  intros S strerror os fuel w0 name w1 f cs w2 rs l content p n k w3 st st2 d e l' p' _ E L P E2 L2 P2 Hn -> ->.
  assert (Hp : (0 <= p)%Z).
  { clear - P. assert (G : forall a l b, plays content (sq_fd f) a l b -> (0 <= a)%Z -> (0 <= b)%Z) by (intros ? ? ? H; induction H; intros; auto; apply IHplays; lia).
    apply (G 0%Z l p P). lia. }
  pose proof (srun_delivers strerror S os content fuel f _ _ _ _ _ _ _ E2 L2 Hp P2) as D.
  assert (Ho : off_t n = Z.of_N n) by (unfold off_t; apply N.ltb_lt in Hn; now rewrite Hn).
  inversion D as [| | |? ? ? ? ? H1 D2|? ? ? ? ? ? H1 D2]; subst; [|congruence].
  inversion D2 as [|? ? ? ? ? ? Q1 Q2 Q3 D3|? ? ? ? ? ? Q1 D3| |]; subst; [|congruence].
  rewrite Ho in *. replace (Z.to_nat (p + Z.of_N n)) with (Z.to_nat p + N.to_nat n) in Q1 by lia.
  split; [exact Q1|]. split; [exact Q2|]. intros H. destruct (Q3 H); [auto|right; lia].
Qed.
Print Assumptions C51_posix_skip.

(** Skip(2^64-1) goes back one byte and says OK. *)
Theorem C51_posix_backwards_refuted :
  exists S (os : S -> syscall -> S * answer) w f content w' l p,
    srun (fun _ => []) S os 5 w f [SqRead 2; SqSkip (2 ^ 64 - 1); SqRead 1] = Ret (w', [(SOk, [1; 2]%N); (SOk, []); (SOk, [2%N])]) /\
    content = [1; 2; 3]%N /\ w_log w' = w_log w ++ l /\ plays content (sq_fd f) 0 l p.
Proof.
  exists nat, (toy_os [1; 2; 3]%N), (mk_world 0 []), (mk_seq 3 []), [1; 2; 3]%N. eexists. eexists. exists 2%Z.
  split; [vm_compute; reflexivity|]. split; [reflexivity|]. split; [reflexivity|]. cbn [sq_fd].
  eapply pl_read; [reflexivity|vm_compute; discriminate|reflexivity|discriminate|].
  eapply pl_seek; [reflexivity|vm_compute; discriminate|].
  eapply pl_read; [reflexivity|vm_compute; discriminate|reflexivity|discriminate|]. apply pl_nil.
Qed.
Print Assumptions C51_posix_backwards_refuted.

(** ** C60 *)
Lemma read_ok dbg c {B} (k : unit -> outcome B) : c = true -> bind (assert_ dbg c) k = k tt.
Proof. intros ->. unfold assert_. destruct dbg; reflexivity. Qed.

(** A file opened in whichever way the limits allow serves every read inside the
    file, at any later time. *)
Theorem C60_reads_inside_the_file :
  forall S dbg strerror (os : S -> syscall -> S * answer) name content w lim,
    serves os name content -> (N.of_nat (length content) < 2 ^ 63)%N -> (content <> [] \/ (l_mmap lim <= 0)%Z) ->
    exists w1 lim1 f, new_random strerror S os w lim name = (w1, lim1, Some f, SOk) /\
      forall w2 off n, (off + n <= N.of_nat (length content))%N ->
        exists w3 r, ran_read dbg strerror S os w2 f off n = Ret (w3, SOk, r) /\
          use content r = Ret (firstn (N.to_nat n) (skipn (N.to_nat off) content)).
Proof.
  intros S dbg strerror os name content w lim [Vo Vs Vp Vn Vm] Hl Hc.
  assert (Pread : forall s fd off n, (0 <= fd)%Z -> (off + n <= N.of_nat (length content))%N ->
    let a := snd (os s (CPread fd n (off_t off))) in (Z.of_N n <? a_ret a)%Z = false /\ (a_ret a <? 0)%Z = false /\
      firstn (Z.to_nat (a_ret a)) (a_data a) = firstn (N.to_nat n) (skipn (N.to_nat off) content)).
  { intros s fd off n Hfd Ho. assert (Hoff : off_t off = Z.of_N off). { unfold off_t. destruct (N.ltb_spec off (2 ^ 63)); [reflexivity|lia]. }
    rewrite Hoff. destruct (Vp s fd n (Z.of_N off) Hfd ltac:(lia)) as (D & R). cbv zeta. rewrite R, Nat2Z.id, firstn_all, D.
    replace (Z.to_nat (Z.of_N off)) with (N.to_nat off) by lia. repeat split; try reflexivity.
    - apply Z.ltb_ge. rewrite firstn_length. lia.
    - apply Z.ltb_ge. lia. }
  unfold new_random, sys at 1. cbv zeta beta iota. pose proof (Vo (w_st w)) as O1.
  destruct (Z.ltb_spec (a_ret (snd (os (w_st w) (COpen name RdOnly)))) 0) as [H|_]; [lia|].
  rewrite (acquire_eq (l_mmap lim)). destruct (Z.ltb_spec 0 (l_mmap lim)) as [Hm|Hm]; cbn [negb].
  - (* mapped *) destruct Hc as [Hc|Hc]; [|lia]. unfold get_file_size, sys at 1. cbv zeta beta iota. cbn [w_st].
    match goal with |- context [snd (os ?s (CStat name))] => destruct (Vs s) as (S1 & S2) end.
    rewrite S1. cbn [negb Z.eqb]. rewrite S2. unfold sys at 1. cbv zeta beta iota. cbn [w_st].
    match goal with |- context [snd (os ?s (CMmap ?fd ?n))] => destruct (Vm s fd n) as (M1 & _); destruct (Z.eqb_spec (a_ret (snd (os s (CMmap fd n)))) (-1)) as [Em|Em] end.
    + apply M1 in Em. destruct content; [congruence|cbn [length] in Em; lia].
    + cbn [negb]. unfold sys. cbv zeta beta iota. eexists. eexists. eexists. split; [reflexivity|].
      intros w2 off n Ho. cbn [ran_read]. assert (Hu : u64 (off + n) = (off + n)%N). { unfold u64. apply N.mod_small. lia. }
      rewrite Hu. apply N.ltb_ge in Ho as Ho'. rewrite Ho'. eexists. eexists. split; [reflexivity|]. cbn [use]. apply N.leb_le in Ho. now rewrite Ho.
  - unfold new_pread. cbn [l_fd l_mmap]. rewrite (acquire_eq (l_fd lim)). destruct (Z.ltb_spec 0 (l_fd lim)) as [Hf|Hf].
    + eexists. eexists. eexists. split; [reflexivity|]. intros w2 off n Ho. cbn [ran_read].
      rewrite read_ok by (apply negb_true_iff, Z.eqb_neq; lia). unfold sys. cbv zeta beta iota.
      destruct (Pread (w_st w2) _ off n O1 Ho) as (P1 & P2 & P3). rewrite P1, P2, P3. eauto.
    + unfold sys. cbv zeta beta iota. eexists. eexists. eexists. split; [reflexivity|]. intros w2 off n Ho. cbn [ran_read]. unfold sys. cbv zeta beta iota. cbn [w_st].
      pose proof (Vo (w_st w2)) as O2. destruct (Z.ltb_spec (a_ret (snd (os (w_st w2) (COpen name RdOnly)))) 0) as [H|_]; [lia|].
      rewrite read_ok by (apply negb_true_iff, Z.eqb_neq; lia).
      destruct (Pread (fst (os (w_st w2) (COpen name RdOnly))) _ off n O2 Ho) as (P1 & P2 & P3). rewrite P1, P2, P3.
      rewrite read_ok by (apply negb_true_iff, Z.eqb_neq; lia). eauto.
Qed.
Print Assumptions C60_reads_inside_the_file.

(** When no mapping was available, reads are cut at the end of the file. *)
Theorem C60_pread_cut_at_the_end :
  forall S dbg strerror (os : S -> syscall -> S * answer) name content w lim,
    serves os name content -> (l_mmap lim <= 0)%Z ->
    exists w1 lim1 f, new_random strerror S os w lim name = (w1, lim1, Some f, SOk) /\
      forall w2 off n, (off < 2 ^ 63)%N ->
        exists w3, ran_read dbg strerror S os w2 f off n = Ret (w3, SOk, Bytes (firstn (N.to_nat n) (skipn (N.to_nat off) content))).
Proof.
  intros S dbg strerror os name content w lim [Vo Vs Vp Vn Vm] Hm.
  assert (Pread : forall s fd off n, (0 <= fd)%Z -> (off < 2 ^ 63)%N ->
    let a := snd (os s (CPread fd n (off_t off))) in (Z.of_N n <? a_ret a)%Z = false /\ (a_ret a <? 0)%Z = false /\
      firstn (Z.to_nat (a_ret a)) (a_data a) = firstn (N.to_nat n) (skipn (N.to_nat off) content)).
  { intros s fd off n Hfd Ho. assert (Hoff : off_t off = Z.of_N off). { unfold off_t. destruct (N.ltb_spec off (2 ^ 63)); [reflexivity|lia]. }
    rewrite Hoff. destruct (Vp s fd n (Z.of_N off) Hfd ltac:(lia)) as (D & R). cbv zeta. rewrite R, Nat2Z.id, firstn_all, D.
    replace (Z.to_nat (Z.of_N off)) with (N.to_nat off) by lia. repeat split; try reflexivity.
    - apply Z.ltb_ge. rewrite firstn_length. lia.
    - apply Z.ltb_ge. lia. }
  unfold new_random, sys at 1. cbv zeta beta iota. pose proof (Vo (w_st w)) as O1.
  destruct (Z.ltb_spec (a_ret (snd (os (w_st w) (COpen name RdOnly)))) 0) as [H|_]; [lia|].
  rewrite (acquire_eq (l_mmap lim)). destruct (Z.ltb_spec 0 (l_mmap lim)) as [Hm'|_]; [lia|]. cbn [negb].
  unfold new_pread. cbn [l_fd l_mmap]. rewrite (acquire_eq (l_fd lim)). destruct (Z.ltb_spec 0 (l_fd lim)) as [Hf|Hf].
  - eexists. eexists. eexists. split; [reflexivity|]. intros w2 off n Ho. cbn [ran_read].
    rewrite read_ok by (apply negb_true_iff, Z.eqb_neq; lia). unfold sys. cbv zeta beta iota.
    destruct (Pread (w_st w2) _ off n O1 Ho) as (P1 & P2 & P3). rewrite P1, P2, P3. eauto.
  - unfold sys. cbv zeta beta iota. eexists. eexists. eexists. split; [reflexivity|]. intros w2 off n Ho. cbn [ran_read]. unfold sys. cbv zeta beta iota. cbn [w_st].
    pose proof (Vo (w_st w2)) as O2. destruct (Z.ltb_spec (a_ret (snd (os (w_st w2) (COpen name RdOnly)))) 0) as [H|_]; [lia|].
    rewrite read_ok by (apply negb_true_iff, Z.eqb_neq; lia).
    destruct (Pread (fst (os (w_st w2) (COpen name RdOnly))) _ off n O2 Ho) as (P1 & P2 & P3). rewrite P1, P2, P3.
    rewrite read_ok by (apply negb_true_iff, Z.eqb_neq; lia). eauto.
Qed.
Print Assumptions C60_pread_cut_at_the_end.

Example C60_serves : serves (toy_os [1; 2; 3]%N) [] [1; 2; 3]%N.
Proof.
  constructor.
  - intros s. vm_compute. discriminate.
  - intros s. split; reflexivity.
  - intros s fd n off _ Ho. cbn [toy_os]. destruct (Z.ltb_spec off 0) as [H|_]; [lia|]. split; reflexivity.
  - intros s fd n off Ho. cbn [toy_os]. destruct (Z.ltb_spec off 0) as [_|H]; [|lia]. split; reflexivity.
  - intros s fd len. cbn [toy_os]. destruct (N.eqb_spec len 0) as [->|H]; cbn; split; try easy; split; easy.
Qed.
Lemma serves_empty : serves (toy_os []) [] [].
Proof.
  constructor.
  - intros s. vm_compute. discriminate.
  - intros s. split; reflexivity.
  - intros s fd n off _ Ho. cbn [toy_os]. destruct (Z.ltb_spec off 0) as [H|_]; [lia|]. split; reflexivity.
  - intros s fd n off Ho. cbn [toy_os]. destruct (Z.ltb_spec off 0) as [_|H]; [|lia]. split; reflexivity.
  - intros s fd len. cbn [toy_os]. destruct (N.eqb_spec len 0) as [->|H]; cbn; split; try easy; split; easy.
Qed.

(** Not the same in the two ways: a read past the end succeeds (cut) with a
    descriptor, fails with a mapping. *)
Theorem C60_mmap_past_the_end_refuted :
  exists S (os : S -> syscall -> S * answer) content w lim lim' w1 w2 lim1 lim2 f1 f2 w3 w4 m,
    serves os [] content /\
    new_random (fun _ => []) S os w lim [] = (w1, lim1, Some f1, SOk) /\ new_random (fun _ => []) S os w lim' [] = (w2, lim2, Some f2, SOk) /\
    ran_read true (fun _ => []) S os w1 f1 1 5 = Ret (w3, SErr IOError [] m, Bytes []) /\
    ran_read true (fun _ => []) S os w2 f2 1 5 = Ret (w4, SOk, Bytes (firstn 5 (skipn 1 content))).
Proof.
  exists nat, (toy_os [1; 2; 3]%N), [1; 2; 3]%N, (mk_world 0 []), (mk_limits 1 1), (mk_limits 0 1). do 9 eexists.
  split; [apply C60_serves|]. repeat split; vm_compute; reflexivity.
Qed.
Print Assumptions C60_mmap_past_the_end_refuted.

(** offset + n wraps: the mapped Read accepts it and hands out a slice that lies
    outside the mapping. *)
Theorem C60_mmap_wraps_refuted :
  exists S (os : S -> syscall -> S * answer) content w lim w1 lim1 f w3 r,
    serves os [] content /\ new_random (fun _ => []) S os w lim [] = (w1, lim1, Some f, SOk) /\
    ran_read true (fun _ => []) S os w1 f (2 ^ 64 - 1) 2 = Ret (w3, SOk, r) /\ use content r = UB.
Proof.
  exists nat, (toy_os [1; 2; 3]%N), [1; 2; 3]%N, (mk_world 0 []), (mk_limits 1 1). do 5 eexists.
  split; [apply C60_serves|]. split; [vm_compute; reflexivity|]. split; [vm_compute; reflexivity|]. vm_compute. reflexivity.
Qed.
Print Assumptions C60_mmap_wraps_refuted.

(** An empty file can be opened without a mapping only. *)
Theorem C60_empty_file_refuted :
  exists S (os : S -> syscall -> S * answer) w m,
    serves os [] [] /\ (forall lim, (0 < l_mmap lim)%Z -> exists w1 lim1, new_random (fun _ => []) S os w lim [] = (w1, lim1, None, SErr IOError [] m)) /\
    (forall lim, (l_mmap lim <= 0)%Z -> exists w1 lim1 f, new_random (fun _ => []) S os w lim [] = (w1, lim1, Some f, SOk)).
Proof.
  exists nat, (toy_os []), (mk_world 0 []), []. split; [apply serves_empty|]. split; intros lim H.
  - unfold new_random. cbn -[acquire release]. rewrite (acquire_eq (l_mmap lim)). apply Z.ltb_lt in H. rewrite H. cbn -[release]. eauto.
  - unfold new_random. cbn -[acquire release]. rewrite (acquire_eq (l_mmap lim)). apply Z.ltb_ge in H. rewrite H. cbn -[acquire release].
    unfold new_pread. cbn -[acquire release]. destruct (acquire (l_fd lim)) as [l []]; cbn; eauto.
Qed.
Print Assumptions C60_empty_file_refuted.

(** ** C63 *)
(** Any history, any kernel: slots in use are those of live files. *)
Theorem C63_slots_in_use :
  forall S dbg strerror (os : S -> syscall -> S * answer) w0 lim0 e, rruns dbg strerror S os w0 lim0 e ->
    (l_mmap lim0 - l_mmap (r_lim e) = Z.of_nat (count is_mmap (r_live e)))%Z /\
    (l_fd lim0 - l_fd (r_lim e) = Z.of_nat (count is_perm (r_live e)))%Z /\
    (Z.of_nat (count is_mmap (r_live e)) <= Z.max 0 (l_mmap lim0))%Z /\ (Z.of_nat (count is_perm (r_live e)) <= Z.max 0 (l_fd lim0))%Z.
Proof.
  intros S dbg strerror os w0 lim0 e R. apply acct in R as [_ _ _ Mm Pm Mp Pp Ml Pl _].
  split; [lia|]. split; [lia|]. split.
  - destruct (Z.ltb_spec (l_mmap lim0) 0) as [H|H]; [rewrite (Mp H); lia|specialize (Ml H); lia].
  - destruct (Z.ltb_spec (l_fd lim0) 0) as [H|H]; [rewrite (Pp H); lia|specialize (Pl H); lia].
Qed.
Print Assumptions C63_slots_in_use.

(** Every descriptor and region obtained is released exactly once or owned by
    exactly one live file; nothing else is closed or unmapped. *)
Theorem C63_nothing_leaked :
  forall S dbg strerror (os : S -> syscall -> S * answer) w0 lim0 e, rruns dbg strerror S os w0 lim0 e ->
    exists l fds ms, w_log (r_world e) = w_log w0 ++ l /\ fds_after [] l = Some fds /\ Permutation fds (owned_fds (r_live e)) /\
      maps_after [] l = Some ms /\ Permutation ms (owned_maps (r_live e)).
Proof. intros S dbg strerror os w0 lim0 e R. apply acct in R as [_ _ _ _ _ _ _ _ _ H]. exact H. Qed.
Print Assumptions C63_nothing_leaked.

(** No call of such a history fails an assertion or overruns scratch. *)
Theorem C63_no_ub :
  forall S dbg strerror (os : S -> syscall -> S * answer) w0 lim0 e c,
    (forall s fd n off, (a_ret (snd (os s (CPread fd n off))) <= Z.of_N n)%Z) -> rruns dbg strerror S os w0 lim0 e ->
    match rstep dbg strerror S os e c with None => True | Some o => exists e', o = Ret e' end.
Proof.
  intros S dbg strerror os w0 lim0 e c K R. apply acct in R as [_ _ Fd _ _ _ _ _ _ _].
  destruct c as [name|o off n|o]; cbn [rstep].
  - destruct (new_random strerror S os (r_world e) (r_lim e) name) as [[[w' lim'] f] st]. eauto.
  - destruct (rlookup (r_live e) o) as [f|] eqn:El; [|exact Logic.I]. apply rlookup_in in El.
    destruct f as [fd nm|nm|b len nm]; cbn [ran_read].
    + apply Fd in El. rewrite read_ok by (apply negb_true_iff, Z.eqb_neq; lia). unfold sys. cbv zeta beta iota.
      pose proof (K (w_st (r_world e)) fd n (off_t off)) as Q. apply Z.ltb_ge in Q. rewrite Q. cbn [bind]. eauto.
    + unfold sys. cbv zeta beta iota. cbn [w_st]. destruct (Z.ltb_spec (a_ret (snd (os (w_st (r_world e)) (COpen nm RdOnly)))) 0) as [H|H]; [cbn [bind]; eauto|].
      rewrite read_ok by (apply negb_true_iff, Z.eqb_neq; lia).
      match goal with |- context [(Z.of_N n <? a_ret (snd (os ?s (CPread ?fd n ?o))))%Z] => pose proof (K s fd n o) as Q end. apply Z.ltb_ge in Q. rewrite Q.
      rewrite read_ok by (apply negb_true_iff, Z.eqb_neq; lia). cbn [bind]. eauto.
    + destruct (_ <? _)%N; cbn [bind]; eauto.
  - destruct (rlookup (r_live e) o) as [f|] eqn:El; [|exact Logic.I]. apply rlookup_in in El.
    destruct f as [fd nm|nm|b len nm]; cbn [ran_delete].
    + apply Fd in El. rewrite read_ok by (apply negb_true_iff, Z.eqb_neq; lia). unfold sys. cbv zeta beta iota. cbn [bind]. eauto.
    + cbn [bind]. eauto.
    + unfold sys. cbv zeta beta iota. cbn [bind]. eauto.
Qed.
Print Assumptions C63_no_ub.

(** A history with all three kinds of file live at once. *)
Fixpoint rexec {S} (os : S -> syscall -> S * answer) (e : renv S) (cs : list rcall) : option (renv S) :=
  match cs with
  | [] => Some e
  | c :: cs' => match rstep true (fun _ => []) S os e c with Some (Ret e') => rexec os e' cs' | _ => None end
  end.
Lemma rexec_runs {S} (os : S -> syscall -> S * answer) w0 lim0 cs : forall e e', rruns true (fun _ => []) S os w0 lim0 e -> rexec os e cs = Some e' ->
  rruns true (fun _ => []) S os w0 lim0 e'.
Proof.
  induction cs as [|c cs IH]; intros e e' R E; cbn [rexec] in E; [injection E as <-; exact R|].
  destruct (rstep true (fun _ => []) S os e c) as [[e1| | |]|] eqn:Es; try discriminate. apply (IH e1); [|exact E]. eapply rr_more; eauto.
Qed.
Example C63_example : exists e, rruns true (fun _ => []) nat (toy_os [1; 2; 3]%N) (mk_world 0 []) (mk_limits 1 1) e /\
  count is_mmap (r_live e) = 1 /\ count is_perm (r_live e) = 1 /\ length (r_live e) = 3 /\ l_mmap (r_lim e) = 0%Z.
Proof.
  destruct (rexec (toy_os [1; 2; 3]%N) (mk_renv (mk_world 0 []) (mk_limits 1 1) [] 0) [RNew []; RNew []; RRead 1 1 1; RNew []; RRead 3 0 9]) as [e|] eqn:E; [|vm_compute in E; discriminate].
  exists e. split; [eapply rexec_runs; [apply rr_start|exact E]|]. vm_compute in E. injection E as <-. vm_compute. repeat split; reflexivity.
Qed.
