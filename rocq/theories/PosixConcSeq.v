(** PosixConcSeq.v -- the programs of PosixConc.v, run alone, are the functions of
    PosixEnv.v. *)
From Coq Require Import List Arith NArith ZArith Lia Bool.
From Verif Require Import Outcome Status MemEnv PosixOs PosixWritable PosixRead PosixEnv PosixFs PosixEnvSpec PosixConc.
Import ListNotations.
Local Open Scope outcome_scope.

Section Seq.
  Variable dbg : bool.
  Variable B : nat.
  Variable strerror : Z -> str.
  Variable S : Type.
  Variable os : S -> syscall -> S * answer.
  Notation world := (world S).

  (** Running a program alone. *)
  Fixpoint interp {A} (p : prog A) (w : world) (lim : limits) : outcome (world * limits * A) :=
    match p with
    | PDone a => Ret (w, lim, a)
    | PBad BadUB => UB
    | PBad BadAssert => AssertFail
    | PBad BadFuel => OutOfFuel
    | PSys c k => let '(w, a) := sys os w c in interp (k a) w lim
    | PSub l k => interp (k (lim_get lim l)) w (lim_add lim l (-1))
    | PAdd l k => interp k w (lim_add lim l 1)
    end.
  Lemma interp_bind {A C} (p : prog A) (f : A -> prog C) : forall w lim,
    interp (pbind p f) w lim = let! (w, lim, a) := interp p w lim in interp (f a) w lim.
  Proof.
    induction p as [a|[]|c k IH|l k IH|l k IH]; intros w lim; cbn [pbind interp bind]; auto.
    destruct (sys os w c). apply IH.
  Qed.
  Lemma interp_sys c w lim : interp (psys c) w lim = let '(w, a) := sys os w c in Ret (w, lim, a).
  Proof. unfold psys. cbn [interp]. destruct (sys os w c). reflexivity. Qed.
  Lemma interp_lift {A} (o : outcome A) w lim : interp (plift o) w lim = let! a := o in Ret (w, lim, a).
  Proof. destruct o; reflexivity. Qed.

  (** What becomes of the table of objects. *)
  Definition table (objs : list (nat * pobj)) (n : nat) (x : pcall) (o : option pobj) : list (nat * pobj) :=
    match on x with
    | Some h => if shared x then objs else match o with Some o => oset objs h o | None => odel objs h end
    | None => match o with Some o => (n, o) :: objs | None => objs end
    end.
  Lemma oset_same objs h o : oget objs h = Some o -> oset objs h o = objs.
  Proof.
    induction objs as [|[p x] objs IH]; cbn [oget oset]; [reflexivity|]. destruct (p =? h); [congruence|]. intros E. now rewrite IH.
  Qed.

  Ltac bsimp := repeat first [rewrite interp_bind | rewrite interp_sys | rewrite interp_lift].

  Lemma seq_write fuel : forall fd name data w lim,
    interp (pwrite_unbuffered strerror fuel fd name data) w lim = let! (w, st) := write_unbuffered strerror S os fuel w fd name data in Ret (w, lim, st).
  Proof.
    induction fuel as [|fuel IH]; intros fd name [|b data] w lim; try reflexivity.
    cbn [pwrite_unbuffered write_unbuffered]. rewrite interp_bind, interp_sys. destruct (sys os w _) as [w1 a]. cbn [bind].
    destruct (a_ret a <? 0)%Z; [destruct (a_errno a =? EINTR)%Z; [apply IH|reflexivity]|].
    destruct (Z.of_nat (length (b :: data)) <? a_ret a)%Z; [reflexivity|apply IH].
  Qed.
  Lemma seq_flush fuel f w lim :
    interp (pflush_buffer strerror fuel f) w lim = let! (w, f, st) := flush_buffer strerror S os fuel w f in Ret (w, lim, (f, st)).
  Proof.
    unfold pflush_buffer, flush_buffer. rewrite interp_bind, interp_lift. destruct (bread_n _ _ _) as [d| | |]; cbn [bind]; [|reflexivity..].
    rewrite interp_bind, seq_write. destruct (write_unbuffered _ _ _ _ _ _ _ _) as [[w1 st]| | |]; reflexivity.
  Qed.
  Lemma seq_append fuel f d w lim :
    interp (pappend B strerror fuel f d) w lim = let! (w, f, st) := append B strerror S os fuel w f d in Ret (w, lim, (f, st)).
  Proof.
    unfold pappend, append. destruct (B <? f_pos f); [reflexivity|]. rewrite interp_bind, interp_lift.
    destruct (bput_bytes (f_buf f) (f_pos f) _) as [buf| | |]; cbn [bind]; [|reflexivity..].
    destruct (skipn _ d) as [|b rest] eqn:Er; [reflexivity|]. rewrite interp_bind, seq_flush.
    destruct (flush_buffer _ _ _ _ _ _) as [[[w1 f1] [|]]| | |]; cbn [bind]; [|reflexivity..].
    destruct (length (b :: rest) <? B).
    - rewrite interp_bind, interp_lift. destruct (bput_bytes (f_buf f1) 0 (b :: rest)) as [buf2| | |]; reflexivity.
    - rewrite interp_bind, seq_write. destruct (write_unbuffered _ _ _ _ _ _ _ _) as [[w2 st]| | |]; reflexivity.
  Qed.
  Lemma seq_close fuel f w lim :
    interp (pclose strerror fuel f) w lim = let! (w, f, st) := close strerror S os fuel w f in Ret (w, lim, (f, st)).
  Proof.
    unfold pclose, close. rewrite interp_bind, seq_flush. destruct (flush_buffer _ _ _ _ _ _) as [[[w1 f1] st]| | |]; cbn [bind]; [|reflexivity..].
    rewrite interp_bind, interp_sys. destruct (sys os w1 _) as [w2 a]. reflexivity.
  Qed.
  Lemma seq_sync_fd fd p w lim : interp (psync_fd strerror fd p) w lim = let '(w, st) := sync_fd strerror S os w fd p in Ret (w, lim, st).
  Proof. unfold psync_fd, sync_fd. rewrite interp_bind, interp_sys. destruct (sys os w _) as [w1 a]. reflexivity. Qed.
  Lemma seq_sync_dir f w lim : interp (psync_dir strerror f) w lim = let '(w, st) := sync_dir_if_manifest strerror S os w f in Ret (w, lim, st).
  Proof.
    unfold psync_dir, sync_dir_if_manifest. destruct (f_manifest f); [|reflexivity]. cbn [negb]. rewrite interp_bind, interp_sys. destruct (sys os w _) as [w1 a]. cbn [bind].
    destruct (a_ret a <? 0)%Z; [reflexivity|]. rewrite interp_bind, seq_sync_fd. destruct (sync_fd _ _ _ _ _ _) as [w2 st]. cbn [bind]. rewrite interp_bind, interp_sys. destruct (sys os w2 _) as [w3 c]. reflexivity.
  Qed.
  Lemma seq_sync fuel f w lim :
    interp (psync strerror fuel f) w lim = let! (w, f, st) := sync strerror S os fuel w f in Ret (w, lim, (f, st)).
  Proof.
    unfold psync, sync. rewrite interp_bind, seq_sync_dir. destruct (sync_dir_if_manifest _ _ _ _ _) as [w1 [|]]; cbn [bind]; [|reflexivity].
    rewrite interp_bind, seq_flush. destruct (flush_buffer _ _ _ _ _ _) as [[[w2 f1] [|]]| | |]; cbn [bind]; [|reflexivity..].
    rewrite interp_bind, seq_sync_fd. destruct (sync_fd _ _ _ _ _ _) as [w3 st]. reflexivity.
  Qed.
  Lemma seq_destroy fuel f w lim :
    interp (pdestroy strerror fuel f) w lim = let! w := destroy strerror S os fuel w f in Ret (w, lim, tt).
  Proof.
    unfold pdestroy, destroy. destruct (0 <=? f_fd f)%Z; [|reflexivity]. rewrite interp_bind, seq_close. destruct (close _ _ _ _ _ _) as [[[w1 f1] st]| | |]; reflexivity.
  Qed.
  Lemma seq_new_writable f fl w lim :
    interp (pnew_writable dbg B strerror f fl) w lim =
    let! (w, o, st) := new_writable dbg B strerror S os w f fl in Ret (w, lim, (option_map ObW o, QStat st)).
  Proof.
    unfold pnew_writable, new_writable. rewrite interp_bind, interp_sys. destruct (sys os w _) as [w1 a]. cbn [bind]. destruct (a_ret a <? 0)%Z; [reflexivity|].
    rewrite interp_bind, interp_lift. destruct (new_wfile dbg B f (a_ret a)) as [g| | |]; reflexivity.
  Qed.
  Lemma seq_seq_read fuel : forall f n w lim,
    interp (pseq_read strerror fuel f n) w lim = let! (w, st, r) := seq_read strerror S os fuel w f n in Ret (w, lim, (st, r)).
  Proof.
    induction fuel as [|fuel IH]; intros f n w lim; [reflexivity|]. cbn [pseq_read seq_read]. rewrite interp_bind, interp_sys. destruct (sys os w _) as [w1 a]. cbn [bind].
    destruct (a_ret a <? 0)%Z; [destruct (a_errno a =? EINTR)%Z; [apply IH|reflexivity]|]. destruct (Z.of_N n <? a_ret a)%Z; reflexivity.
  Qed.
  Lemma seq_acquire l w lim :
    interp (pacquire l) w lim = let r := acquire (lim_get lim l) in Ret (w, lim_add lim l (fst r - lim_get lim l), snd r).
  Proof.
    unfold pacquire, acquire. cbn [interp]. destruct (0 <? lim_get lim l)%Z; cbn [interp fst snd].
    - do 2 f_equal. destruct l; unfold lim_add, lim_get; do 2 f_equal; lia.
    - do 2 f_equal. destruct l; unfold lim_add, lim_get; cbn [l_mmap l_fd]; do 2 f_equal; lia.
  Qed.
  Lemma seq_size f w lim : interp (pget_file_size strerror f) w lim = let '(w, k, st) := get_file_size strerror S os w f in Ret (w, lim, (k, st)).
  Proof. unfold pget_file_size, get_file_size. rewrite interp_bind, interp_sys. destruct (sys os w _) as [w1 a]. cbn [bind]. destruct (a_ret a =? 0)%Z; reflexivity. Qed.
  Lemma seq_new_random f w lim :
    interp (pnew_random strerror f) w lim =
    let '(w, lim, o, st) := new_random strerror S os w lim f in Ret (w, lim, (option_map ObR o, QStat st)).
  Proof.
    unfold pnew_random, new_random. rewrite interp_bind, interp_sys. destruct (sys os w _) as [w1 a]. cbn [bind]. destruct (a_ret a <? 0)%Z; [reflexivity|].
    rewrite interp_bind, seq_acquire. cbn [bind lim_get]. destruct (acquire (l_mmap lim)) as [l got] eqn:Ea. cbn [fst snd].
    assert (EL : lim_add lim LMmap (l - l_mmap lim) = mk_limits l (l_fd lim)) by (unfold lim_add; f_equal; lia). rewrite EL. clear EL.
    destruct got; cbn [negb].
    - rewrite interp_bind, seq_size. destruct (get_file_size _ _ _ _ _) as [[w2 k] [|]]; cbn [bind].
      + rewrite interp_bind, interp_bind, interp_sys. destruct (sys os w2 _) as [w3 m]. cbn [bind interp]. destruct (a_ret m =? -1)%Z eqn:Em; cbn [negb].
        * rewrite interp_bind, interp_sys. destruct (sys os w3 _) as [w4 c]. cbn [bind]. unfold PosixError. destruct (a_errno m =? ENOENT)%Z; reflexivity.
        * rewrite interp_bind, interp_sys. destruct (sys os w3 _) as [w4 c]. reflexivity.
      + rewrite interp_bind. cbn [interp bind]. rewrite interp_bind, interp_sys. destruct (sys os w2 _) as [w4 c']. reflexivity.
    - unfold pnew_pread, new_pread. rewrite interp_bind, interp_bind, seq_acquire. cbn [bind lim_get l_fd l_mmap]. destruct (acquire (l_fd lim)) as [l2 got2]. cbn [fst snd].
      assert (EL : lim_add (mk_limits l (l_fd lim)) LFd (l2 - l_fd lim) = mk_limits l l2) by (unfold lim_add; cbn [l_fd l_mmap]; f_equal; lia). rewrite EL.
      destruct got2; [reflexivity|]. rewrite interp_bind, interp_sys. destruct (sys os w1 _) as [w2 c]. reflexivity.
  Qed.
  Lemma seq_ran_read f off n w lim :
    interp (pran_read dbg strerror f off n) w lim = let! (w, st, r) := ran_read dbg strerror S os w f off n in Ret (w, lim, (st, r)).
  Proof.
    destruct f as [fd name|name|base len name]; cbn [pran_read ran_read].
    - rewrite interp_bind, interp_lift. destruct (assert_ _ _); cbn [bind]; [|reflexivity..]. rewrite interp_bind, interp_sys. destruct (sys os w _) as [w1 a']. cbn [bind].
      destruct (Z.of_N n <? a_ret a')%Z; reflexivity.
    - rewrite interp_bind, interp_sys. destruct (sys os w _) as [w1 o]. cbn [bind]. destruct (a_ret o <? 0)%Z; [reflexivity|].
      rewrite interp_bind, interp_lift. destruct (assert_ _ _) eqn:E1; cbn [bind]; [|reflexivity..]. rewrite interp_bind, interp_sys. destruct (sys os w1 _) as [w2 a']. cbn [bind].
      destruct (Z.of_N n <? a_ret a')%Z; [reflexivity|]. rewrite interp_bind, interp_lift. cbn [bind]. rewrite interp_bind, interp_sys. destruct (sys os w2 _) as [w3 c]. reflexivity.
    - destruct (len <? u64 (off + n))%N; reflexivity.
  Qed.
  Lemma seq_ran_delete f w lim :
    interp (pran_delete dbg f) w lim = let! (w, lim) := ran_delete dbg S os w lim f in Ret (w, lim, tt).
  Proof.
    destruct f as [fd name|name|base len name]; cbn [pran_delete ran_delete]; [|reflexivity|].
    - rewrite interp_bind, interp_lift. destruct (assert_ _ _); cbn [bind]; [|reflexivity..]. rewrite interp_bind, interp_sys. destruct (sys os w _) as [w1 a']. reflexivity.
    - rewrite interp_bind, interp_sys. destruct (sys os w _) as [w1 a']. reflexivity.
  Qed.
  Lemma seq_read_dir fuel : forall d l w lim,
    interp (pread_dir fuel d l) w lim = let! (w, l) := read_dir S os fuel w d l in Ret (w, lim, l).
  Proof.
    induction fuel as [|fuel IH]; intros d l w lim; [reflexivity|]. cbn [pread_dir read_dir]. rewrite interp_bind, interp_sys. destruct (sys os w _) as [w1 a]. cbn [bind].
    destruct (a_ret a =? 0)%Z; [reflexivity|apply IH].
  Qed.
  Lemma seq_children fuel d w lim :
    interp (pget_children strerror fuel d) w lim = let! (w, st, l) := get_children strerror S os fuel w d in Ret (w, lim, (st, l)).
  Proof.
    unfold pget_children, get_children. rewrite interp_bind, interp_sys. destruct (sys os w _) as [w1 a]. cbn [bind]. destruct (N.eqb (a_val a) 0); [reflexivity|].
    rewrite interp_bind, seq_read_dir. destruct (read_dir _ _ _ _ _ _) as [[w2 l]| | |]; cbn [bind]; [|reflexivity..]. rewrite interp_bind, interp_sys. destruct (sys os w2 _) as [w3 c]. reflexivity.
  Qed.
  Lemma seq_ask c ctx w lim : interp (pask strerror c ctx) w lim =
    let '(w, a) := sys os w c in Ret (w, lim, if negb (a_ret a =? 0)%Z then PosixError strerror ctx (a_errno a) else SOk).
  Proof. unfold pask. rewrite interp_bind, interp_sys. destruct (sys os w c) as [w1 a]. reflexivity. Qed.

  (** Every call. *)
  Theorem prog_runs_alone : forall fuel e n x,
    pcall_ dbg B strerror S os fuel e n x =
    let! (w, lim, r) := interp (prog_of dbg B strerror fuel x (match on x with Some h => oget (p_objs e) h | None => None end)) (p_w e) (p_lim e) in
    Ret (mk_penv w lim (table (p_objs e) n x (fst r)), snd r).
  Proof.
    intros fuel e n x. destruct x; cbn [on prog_of pcall_]; unfold table; cbn [on shared].
    - unfold pnew_sequential, new_sequential. rewrite interp_bind, interp_sys. destruct (sys os (p_w e) _) as [w1 a]. cbn [bind]. destruct (a_ret a <? 0)%Z; reflexivity.
    - rewrite seq_new_random. destruct (new_random _ _ _ _ _ _) as [[[w1 lim1] o] st]. cbn [bind fst snd]. unfold pnew. destruct o; reflexivity.
    - rewrite seq_new_writable. unfold NewWritableFile. destruct (new_writable _ _ _ _ _ _ _ _) as [[[w1 o] st]| | |]; cbn [bind fst snd]; [|reflexivity..]. unfold pnew. destruct o; reflexivity.
    - rewrite seq_new_writable. unfold NewAppendableFile. destruct (new_writable _ _ _ _ _ _ _ _) as [[[w1 o] st]| | |]; cbn [bind fst snd]; [|reflexivity..]. unfold pnew. destruct o; reflexivity.
    - unfold file_exists. rewrite interp_bind, interp_sys. destruct (sys os (p_w e) _) as [w1 a]. reflexivity.
    - rewrite interp_bind, seq_children. destruct (get_children _ _ _ _ _ _) as [[[w1 st] l]| | |]; reflexivity.
    - rewrite interp_bind, seq_ask. unfold remove_file. destruct (sys os (p_w e) _) as [w1 a]. reflexivity.
    - rewrite interp_bind, seq_size. destruct (get_file_size _ _ _ _ _) as [[w1 k] st]. reflexivity.
    - rewrite interp_bind, seq_ask. unfold rename_file. destruct (sys os (p_w e) _) as [w1 a']. reflexivity.
    - rewrite interp_bind, seq_ask. unfold create_dir. destruct (sys os (p_w e) _) as [w1 a']. reflexivity.
    - rewrite interp_bind, seq_ask. unfold remove_dir. destruct (sys os (p_w e) _) as [w1 a']. reflexivity.
    - destruct (oget (p_objs e) h) as [[f|f|f]|] eqn:Eo; try reflexivity. rewrite interp_bind, seq_seq_read. destruct (seq_read _ _ _ _ _ _ _) as [[[w1 st] r]| | |]; cbn [bind fst snd interp]; [|reflexivity..].
      rewrite oset_same by exact Eo. reflexivity.
    - destruct (oget (p_objs e) h) as [[f|f|f]|] eqn:Eo; try reflexivity. unfold pseq_skip, seq_skip. rewrite interp_bind, interp_bind, interp_sys. destruct (sys os (p_w e) _) as [w1 a]. cbn [bind fst snd interp].
      rewrite oset_same by exact Eo. destruct (a_ret a =? -1)%Z; reflexivity.
    - destruct (oget (p_objs e) h) as [[f|f|f]|] eqn:Eo; try reflexivity. rewrite interp_bind, seq_ran_read. destruct (ran_read _ _ _ _ _ _ _ _) as [[[w1 st] r]| | |]; reflexivity.
    - unfold PosixEnv.pwrite. destruct (oget (p_objs e) h) as [[f|f|f]|] eqn:Eo; try reflexivity. cbn [wstep]. unfold pw. rewrite interp_bind, seq_append. destruct (append _ _ _ _ _ _ _ _) as [[[w1 f1] st]| | |]; reflexivity.
    - unfold PosixEnv.pwrite. destruct (oget (p_objs e) h) as [[f|f|f]|] eqn:Eo; try reflexivity. cbn [wstep]. unfold pw. rewrite interp_bind, seq_close. destruct (close _ _ _ _ _ _) as [[[w1 f1] st]| | |]; reflexivity.
    - unfold PosixEnv.pwrite. destruct (oget (p_objs e) h) as [[f|f|f]|] eqn:Eo; try reflexivity. cbn [wstep]. unfold pw, flush. rewrite interp_bind, seq_flush. destruct (flush_buffer _ _ _ _ _ _) as [[[w1 f1] st]| | |]; reflexivity.
    - unfold PosixEnv.pwrite. destruct (oget (p_objs e) h) as [[f|f|f]|] eqn:Eo; try reflexivity. cbn [wstep]. unfold pw. rewrite interp_bind, seq_sync. destruct (sync _ _ _ _ _ _) as [[[w1 f1] st]| | |]; reflexivity.
    - destruct (oget (p_objs e) h) as [[f|f|f]|] eqn:Eo; try reflexivity.
      + rewrite interp_bind, seq_destroy. destruct (destroy _ _ _ _ _ _) as [w1| | |]; reflexivity.
      + rewrite interp_bind, seq_ran_delete. destruct (ran_delete _ _ _ _ _ _) as [[w1 lim1]| | |]; reflexivity.
  Qed.
End Seq.
