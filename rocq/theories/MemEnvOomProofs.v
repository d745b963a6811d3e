(** MemEnvOomProofs.v -- a call of the in-memory environment that throws
    std::bad_alloc leaves exactly the state of the calls [as_if]. *)
From Coq Require Import List Arith NArith ZArith Lia Bool Sorting.Sorted.
From Verif Require Import Outcome Heap Status MemEnv MemEnvSpec MemEnvMem MemEnvMap MemEnvProofs MemEnvOom.
Import ListNotations.
Local Open Scope outcome_scope.

(** ** Heaps *)
Lemma hdel_hdel {A} (h : heap A) a : hdel (hdel h a) a = hdel h a.
Proof. apply hdel_notin, hget_hdel_eq. Qed.
Lemma hdel_hput {A} (h : heap A) a x : hdel (hput h a x) a = hdel h a.
Proof. unfold hput. cbn [hdel]. rewrite Nat.eqb_refl. apply hdel_hdel. Qed.
Lemma hput_hput {A} (h : heap A) a x y : hput (hput h a x) a y = hput h a y.
Proof. unfold hput at 1 3. now rewrite hdel_hput. Qed.

(** Ref then Unref on the object written last. *)
Lemma ref_unref dbg m0 a f : (0 < fs_refs f < 2 ^ 31 - 1)%Z ->
  exists m', ref (putf m0 a f) a = Ret m' /\ unref dbg m' a = Ret (putf m0 a f).
Proof.
  intros (P & L). unfold ref, getf. cbn [putf m_files]. rewrite hget_hput_eq. cbn [bind].
  apply Z.ltb_lt in L. rewrite L. eexists. split; [reflexivity|].
  unfold unref, unref_dec, getf, putf. cbn [m_files m_blocks]. rewrite hget_hput_eq. cbn [bind fs_refs fs_blocks fs_size].
  replace (fs_refs f + 1 - 1)%Z with (fs_refs f) by lia.
  destruct (Z.leb_spec 0 (fs_refs f)); [|lia]. unfold assert_. rewrite andb_false_r. cbn [bind fst snd].
  destruct (Z.leb_spec (fs_refs f) 0); [lia|]. rewrite !hput_hput. destruct f. reflexivity.
Qed.

(** ** Append *)
Section Append.
  Variable alb : allocator.

  (** how many bytes are copied before the fault *)
  Definition room (s : N) : N := if (s mod kBlockSize =? 0)%N then 0%N else (kBlockSize - s mod kBlockSize)%N.
  Definition count (ft : fault) : option nat := match ft with FBlock n | FPush n => Some n | _ => None end.
  Definition kept_N (s : N) (n : nat) : N := (room s + N.of_nat n * kBlockSize)%N.

  Lemma kBS0 : (0 < kBlockSize)%N.
  Proof. rewrite kBS. pose proof BS_pos. lia. Qed.

  Lemma room_aligned s : (s mod kBlockSize = 0)%N -> room s = 0%N.
  Proof. intros E. unfold room. rewrite E. reflexivity. Qed.
  Lemma fill_aligned s : (s mod kBlockSize <> 0)%N -> ((s + (kBlockSize - s mod kBlockSize)) mod kBlockSize = 0)%N.
  Proof.
    intros E. pose proof kBS0 as P. pose proof (N.div_mod s kBlockSize ltac:(lia)) as D.
    pose proof (N.mod_lt s kBlockSize ltac:(lia)) as L.
    replace (s + (kBlockSize - s mod kBlockSize))%N with ((s / kBlockSize + 1) * kBlockSize)%N by lia.
    apply N.mod_mul. lia.
  Qed.
  Lemma block_aligned s : (s mod kBlockSize = 0)%N -> ((s + kBlockSize) mod kBlockSize = 0)%N.
  Proof. intros E. pose proof kBS0. replace (s + kBlockSize)%N with (s + 1 * kBlockSize)%N by lia. rewrite N.mod_add by lia. exact E. Qed.

  Lemma block_fault_some ft bh : block_fault alb ft bh <> None <-> count ft = Some 0.
  Proof. destruct ft as [| | | |[|n]|[|n]|]; cbn; split; congruence. Qed.
  Lemma block_fault_val ft bh r : (forall live, ~ In (alb live) live /\ alb live <> 0) -> block_fault alb ft bh = Some r ->
    fst r = bh /\ snd r = match ft with FPush _ => 1 | _ => 0 end.
  Proof.
    intros A. destruct ft as [| | | |[|n]|[|n]|]; cbn; intros E; try discriminate; injection E as <-; split; cbn [fst snd]; auto.
    destruct (A (dom bh)) as (Q & _). apply not_dom_hget in Q. rewrite Nat.eqb_refl, hdel_hdel. now apply hdel_notin.
  Qed.
  Lemma next_count ft n : count ft = Some (S n) -> count (next_block ft) = Some n.
  Proof. destruct ft as [| | | |[|m]|[|m]|]; cbn; intros E; try discriminate; now injection E as <-. Qed.
  Lemma next_kind ft n : count ft = Some (S n) -> match next_block ft with FPush _ => 1 | _ => 0 end = match ft with FPush _ => 1 | _ => 0 end.
  Proof. destruct ft as [| | | |[|m]|[|m]|]; cbn; intros E; try discriminate; reflexivity. Qed.

  (** one step of the ordinary loop, as a function *)
  Definition one (bh : heap block) (f : fstate) (src : list N) : outcome (heap block * fstate * N) :=
    let offset := (fs_size f mod kBlockSize)%N in
    let '(bh1, blocks1, avail0) :=
      if (offset =? 0)%N then
        let b := alb (dom bh) in
        (hput bh b (repeat None (N.to_nat kBlockSize)), fs_blocks f ++ [b], kBlockSize)
      else (bh, fs_blocks f, (kBlockSize - offset)%N) in
    let avail := N.min avail0 (N.of_nat (length src)) in
    match rev blocks1 with
    | [] => UB
    | b :: _ =>
        match hget bh1 b with
        | None => UB
        | Some arr =>
            let! arr' := bput_bytes arr (N.to_nat offset) (firstn (N.to_nat avail) src) in
            Ret (hput bh1 b arr', mk_fstate (fs_refs f) blocks1 (u64 (fs_size f + avail)), avail)
        end
    end.
  Lemma append_loop_step fuel bh f src : src <> [] ->
    append_loop alb (S fuel) bh f src = let! r := one bh f src in append_loop alb fuel (fst (fst r)) (snd (fst r)) (skipn (N.to_nat (snd r)) src).
  Proof.
    intros Hs. destruct src as [|x src]; [congruence|]. unfold one. cbn [append_loop].
    destruct (_ =? 0)%N; cbn beta iota zeta.
    - destruct (rev _); [reflexivity|]. destruct (hget _ _); [|reflexivity]. now destruct (bput_bytes _ _ _).
    - destruct (rev _); [reflexivity|]. destruct (hget _ _); [|reflexivity]. now destruct (bput_bytes _ _ _).
  Qed.
  Lemma append_loop_f_step fuel bh f src ft : src <> [] ->
    append_loop_f alb (S fuel) bh f src ft =
    match (if (fs_size f mod kBlockSize =? 0)%N then block_fault alb ft bh else None) with
    | Some r => Ret (Some (fst r, f, snd r))
    | None => let! r := one bh f src in
              append_loop_f alb fuel (fst (fst r)) (snd (fst r)) (skipn (N.to_nat (snd r)) src)
                (if (fs_size f mod kBlockSize =? 0)%N then next_block ft else ft)
    end.
  Proof.
    intros Hs. destruct src as [|x src]; [congruence|]. unfold one. cbn [append_loop_f].
    destruct (_ =? 0)%N; cbn beta iota zeta.
    - destruct (block_fault alb ft bh) as [[bh' n]|]; [reflexivity|].
      destruct (rev _); [reflexivity|]. destruct (hget _ _); [|reflexivity]. now destruct (bput_bytes _ _ _).
    - destruct (rev _); [reflexivity|]. destruct (hget _ _); [|reflexivity]. now destruct (bput_bytes _ _ _).
  Qed.
  Definition chunk (s : N) : N := if (s mod kBlockSize =? 0)%N then kBlockSize else (kBlockSize - s mod kBlockSize)%N.
  Lemma chunk_pos s : (0 < chunk s)%N.
  Proof. unfold chunk. pose proof kBS0. pose proof (N.mod_lt s kBlockSize ltac:(lia)). destruct (N.eqb_spec (s mod kBlockSize) 0); lia. Qed.
  Lemma chunk_aligned s : ((s + chunk s) mod kBlockSize = 0)%N.
  Proof.
    unfold chunk. destruct (N.eqb_spec (s mod kBlockSize) 0); [now apply block_aligned|now apply fill_aligned].
  Qed.
  (** only the bytes copied matter *)
  Lemma one_prefix bh f src k : (chunk (fs_size f) <= N.of_nat k)%N -> k <= length src -> one bh f (firstn k src) = one bh f src.
  Proof.
    intros Hk Hl. unfold one, chunk in *. destruct (_ =? 0)%N; cbn beta iota zeta;
    (rewrite !N.min_l by (rewrite ?firstn_length; lia); rewrite firstn_firstn, Nat.min_l by lia; reflexivity).
  Qed.
  Lemma one_size bh f src bh1 f1 av : one bh f src = Ret (bh1, f1, av) ->
    av = N.min (chunk (fs_size f)) (N.of_nat (length src)) /\ fs_size f1 = u64 (fs_size f + av).
  Proof.
    unfold one, chunk. destruct (_ =? 0)%N; cbn beta iota zeta; (destruct (rev _); [discriminate|]; destruct (hget _ _); [|discriminate];
      destruct (bput_bytes _ _ _); cbn [bind]; try discriminate; intros E; injection E as <- <- <-; split; reflexivity).
  Qed.

  (** The loop with a fault at array [n]: if it reaches the array, it stopped
      where the ordinary loop ends when it is given only the bytes before. *)
  Lemma append_f_hit : (forall live, ~ In (alb live) live /\ alb live <> 0) -> forall fuel bh f src ft n r,
    (fs_size f + N.of_nat (length src) < 2 ^ 64)%N -> length src <= fuel ->
    append_loop alb fuel bh f src = Ret r -> count ft = Some n ->
    if (kept_N (fs_size f) n <? N.of_nat (length src))%N then
      exists bh' f', append_loop_f alb fuel bh f src ft = Ret (Some (bh', f', match ft with FPush _ => 1 | _ => 0 end)) /\
        forall fuel', N.to_nat (kept_N (fs_size f) n) <= fuel' ->
          append_loop alb fuel' bh f (firstn (N.to_nat (kept_N (fs_size f) n)) src) = Ret (bh', f')
    else append_loop_f alb fuel bh f src ft = Ret None.
  Proof.
    intros A. induction fuel as [|fuel IH]; intros bh f src ft n r Hs Hf E C.
    { destruct src; [|cbn in Hf; lia]. cbn [length append_loop_f]. destruct (N.ltb_spec (kept_N (fs_size f) n) (N.of_nat 0)); [lia|reflexivity]. }
    destruct src as [|x src0].
    { cbn [length append_loop_f]. destruct (N.ltb_spec (kept_N (fs_size f) n) (N.of_nat 0)); [lia|reflexivity]. }
    set (src := x :: src0) in *. assert (Hne : src <> []) by discriminate. assert (Hl : 1 <= length src) by (cbn; lia).
    rewrite append_loop_f_step by exact Hne. rewrite append_loop_step in E by exact Hne.
    pose proof kBS0 as BP.
    destruct (N.eqb_spec (fs_size f mod kBlockSize) 0) as [Al|Al].
    - (* a new array is needed *)
      destruct n as [|n].
      + destruct (block_fault alb ft bh) as [q|] eqn:Q; [|exfalso; apply block_fault_some with (bh := bh) in C; congruence].
        destruct (block_fault_val ft bh q A Q) as (Q1 & Q2). unfold kept_N. rewrite room_aligned by exact Al.
        replace (0 + N.of_nat 0 * kBlockSize)%N with 0%N by lia.
        destruct (N.ltb_spec 0 (N.of_nat (length src))); [|lia]. exists bh, f. rewrite Q1, Q2. split; [reflexivity|].
        intros fuel' _. cbn [N.to_nat firstn]. now destruct fuel'.
      + destruct (block_fault alb ft bh) as [q|] eqn:Q.
        { assert (C0 : count ft = Some 0) by (apply block_fault_some with (bh := bh); congruence). congruence. }
        destruct (one bh f src) as [[[bh1 f1] av]| | |] eqn:O; try discriminate. cbn [bind fst snd] in *.
        destruct (one_size _ _ _ _ _ _ O) as (Av & S1).
        assert (Ck : chunk (fs_size f) = kBlockSize) by (unfold chunk; rewrite Al; reflexivity). rewrite Ck in Av.
        assert (S1' : fs_size f1 = (fs_size f + av)%N) by (rewrite S1; apply u64_small; lia).
        specialize (IH bh1 f1 (skipn (N.to_nat av) src) (next_block ft) n r). rewrite skipn_length in IH.
        specialize (IH ltac:(rewrite S1'; lia) ltac:(lia) E (next_count _ _ C)). rewrite (next_kind _ _ C) in IH.
        assert (K : kept_N (fs_size f) (S n) = (kBlockSize + N.of_nat n * kBlockSize)%N) by (unfold kept_N; rewrite room_aligned by exact Al; lia).
        destruct (N.leb_spec (N.of_nat (length src)) kBlockSize) as [Short|Long].
        * (* everything fits into this array *)
          rewrite N.min_r in Av by lia. destruct (N.ltb_spec (kept_N (fs_size f) (S n)) (N.of_nat (length src))); [lia|].
          rewrite (skipn_all2 src) by lia. now destruct fuel.
        * rewrite N.min_l in Av by lia. assert (K1 : kept_N (fs_size f1) n = (N.of_nat n * kBlockSize)%N).
          { unfold kept_N. rewrite room_aligned; [lia|]. rewrite S1', Av. now apply block_aligned. }
          rewrite K1 in IH.
          destruct (N.ltb_spec (kept_N (fs_size f) (S n)) (N.of_nat (length src))) as [Lt|Ge];
            destruct (N.ltb_spec (N.of_nat n * kBlockSize) (N.of_nat (length src - N.to_nat av))) as [Lt'|Ge']; try lia.
          -- destruct IH as (bh' & f' & E1 & E2). exists bh', f'. split; [exact E1|]. intros fuel' Hf'.
             set (k := N.to_nat (kept_N (fs_size f) (S n))) in *. assert (Hk : (kBlockSize <= N.of_nat k)%N) by (unfold k; lia).
             assert (Hk2 : k <= length src) by (unfold k; lia).
             destruct fuel' as [|fuel']; [lia|].
             rewrite append_loop_step by (intros Q0; apply (f_equal (@length N)) in Q0; rewrite firstn_length in Q0; cbn [length] in Q0; lia).
             rewrite one_prefix, O by (rewrite ?Ck; lia). cbn [bind fst snd].
             rewrite skipn_firstn_comm. replace (k - N.to_nat av) with (N.to_nat (N.of_nat n * kBlockSize)) by (unfold k; lia).
             apply E2. lia.
          -- exact IH.
    - (* there is room in the last array *)
      destruct (one bh f src) as [[[bh1 f1] av]| | |] eqn:O; try discriminate. cbn [bind fst snd] in *.
      destruct (one_size _ _ _ _ _ _ O) as (Av & S1).
      assert (Ck : chunk (fs_size f) = room (fs_size f)) by (unfold chunk, room; destruct (N.eqb_spec (fs_size f mod kBlockSize) 0); [contradiction|reflexivity]).
      pose proof (chunk_pos (fs_size f)) as Cp.
      assert (S1' : fs_size f1 = (fs_size f + av)%N) by (rewrite S1; apply u64_small; lia).
      specialize (IH bh1 f1 (skipn (N.to_nat av) src) ft n r). rewrite skipn_length in IH.
      specialize (IH ltac:(rewrite S1'; lia) ltac:(lia) E C).
      assert (K : kept_N (fs_size f) n = (chunk (fs_size f) + N.of_nat n * kBlockSize)%N) by (unfold kept_N; rewrite Ck; lia).
      destruct (N.leb_spec (N.of_nat (length src)) (chunk (fs_size f))) as [Short|Long].
      + rewrite N.min_r in Av by lia. destruct (N.ltb_spec (kept_N (fs_size f) n) (N.of_nat (length src))); [lia|].
        rewrite (skipn_all2 src) by lia. now destruct fuel.
      + rewrite N.min_l in Av by lia. assert (K1 : kept_N (fs_size f1) n = (N.of_nat n * kBlockSize)%N).
        { unfold kept_N. rewrite room_aligned; [lia|]. rewrite S1', Av. apply chunk_aligned. }
        rewrite K1 in IH.
        destruct (N.ltb_spec (kept_N (fs_size f) n) (N.of_nat (length src))) as [Lt|Ge];
          destruct (N.ltb_spec (N.of_nat n * kBlockSize) (N.of_nat (length src - N.to_nat av))) as [Lt'|Ge']; try lia.
        * destruct IH as (bh' & f' & E1 & E2). exists bh', f'. split; [exact E1|]. intros fuel' Hf'.
          set (k := N.to_nat (kept_N (fs_size f) n)) in *. assert (Hk : (chunk (fs_size f) <= N.of_nat k)%N) by (unfold k; lia).
          assert (Hk2 : k <= length src) by (unfold k; lia).
          destruct fuel' as [|fuel']; [lia|].
          rewrite append_loop_step by (intros Q0; apply (f_equal (@length N)) in Q0; rewrite firstn_length in Q0; cbn [length] in Q0; lia).
          rewrite one_prefix, O by lia. cbn [bind fst snd].
          rewrite skipn_firstn_comm. replace (k - N.to_nat av) with (N.to_nat (N.of_nat n * kBlockSize)) by (unfold k; lia).
          apply E2. lia.
        * exact IH.
  Qed.
  (** other faults do not concern it *)
  Lemma append_f_other : forall fuel bh f src ft r, count ft = None -> append_loop alb fuel bh f src = Ret r ->
    append_loop_f alb fuel bh f src ft = Ret None.
  Proof.
    induction fuel as [|fuel IH]; intros bh f src ft r C E; destruct src as [|x src]; try reflexivity; [discriminate|].
    rewrite append_loop_f_step by discriminate. rewrite append_loop_step in E by discriminate.
    assert (B : block_fault alb ft bh = None) by (destruct ft as [| | | |[|n]|[|n]|]; try discriminate; reflexivity).
    assert (Nx : next_block ft = ft) by (destruct ft as [| | | |[|n]|[|n]|]; try discriminate; reflexivity).
    rewrite B, Nx. destruct (one bh f (x :: src)) as [q| | |]; try discriminate. cbn [bind] in *.
    destruct (_ =? 0)%N; eapply IH; eauto.
  Qed.
End Append.

Transparent kBlockSize.
Lemma block_8192 : kBlockSize = 8192%N.
Proof. reflexivity. Qed.
Opaque kBlockSize.
Lemma kept_kept_N s n : kept s n = N.to_nat (kept_N s n).
Proof.
  assert (E : ((8192 - s mod 8192) mod 8192)%N = room s).
  { unfold room. rewrite block_8192. pose proof (N.mod_lt s 8192 ltac:(lia)) as L. destruct (N.eqb_spec (s mod 8192) 0) as [H|H].
    - rewrite H. reflexivity.
    - revert H L. generalize (s mod 8192)%N. intros m H L. apply N.mod_small. lia. }
  unfold kept, kept_N. rewrite E, block_8192. lia.
Qed.

(** ** Calls *)
Section Calls.
  Variables (alc alb : allocator) (dbg : bool).
  Hypothesis Halc : allocator_ok alc.
  Hypothesis Halb : allocator_ok alb.

  (** What is claimed of one call that may throw. *)
  Definition thrown_ok (H : history) (x : call) (ft : fault) (o : option thrown) : Prop :=
    (o <> None <-> needs H x ft) /\
    forall t, o = Some t -> exists evs, map ev_call evs = rev (as_if H x ft) /\ reach alc alb dbg (evs ++ H) (th_env t) /\
      th_files t = lost_files x ft /\ th_blocks t = lost_blocks x ft.
  Definition safe (H : history) (e : env) (x : call) (ft : fault) : Prop :=
    exists o, exec_f alc alb dbg H e x ft = Ret o /\ thrown_ok H x ft o.

  Lemma ok_none H x ft : ~ needs H x ft -> thrown_ok H x ft None.
  Proof. intros N. split; [tauto|discriminate]. Qed.
  Lemma ok_same H e x ft : reach alc alb dbg H e -> needs H x ft -> as_if H x ft = [] -> lost_files x ft = 0 -> lost_blocks x ft = 0 ->
    thrown_ok H x ft (Some (mk_thrown e 0 0)).
  Proof.
    intros R N A F B. split; [split; [auto|discriminate]|]. intros t E. injection E as <-. exists []. rewrite A, F, B. auto.
  Qed.
  Lemma ok_one H e x ft y e' nf nb : reach alc alb dbg H e -> legal H y -> needs H x ft -> as_if H x ft = [y] ->
    (forall e1 ev, exec alc alb dbg H e y = Ret (e1, ev) -> e1 = e') -> lost_files x ft = nf -> lost_blocks x ft = nb ->
    thrown_ok H x ft (Some (mk_thrown e' nf nb)).
  Proof.
    intros R L N A E F B. split; [split; [auto|discriminate]|]. intros t Et. injection Et as <-.
    destruct (reach_step alc alb dbg Halc Halb H e y R L) as (e1 & r & E1 & _ & R1).
    exists [mk_event y r]. rewrite A, F, B. cbn [map ev_call rev app th_env th_files th_blocks]. rewrite (E _ _ E1) in R1. auto.
  Qed.

  (** a Status is made: the call would have returned an error and changed nothing *)
  Lemma status_case H e x (res : outcome (env * status)) : reach alc alb dbg H e -> legal H x ->
    as_if H x FStatus = [] -> lost_files x FStatus = 0 -> lost_blocks x FStatus = 0 ->
    exec_f alc alb dbg H e x FStatus = (let! r := res in Ret (on_error (fst r) (snd r))) ->
    (exists e' s, res = Ret (e', s) /\ (s = SOk /\ ~ needs H x FStatus \/ s <> SOk /\ e' = e /\ needs H x FStatus)) ->
    safe H e x FStatus.
  Proof.
    intros R L A F B E (e' & s & -> & Q). unfold safe. rewrite E. cbn [bind fst snd]. eexists. split; [reflexivity|].
    destruct Q as [(-> & N)|(Ns & -> & N)].
    - now apply ok_none.
    - destruct s; [congruence|]. now apply ok_same.
  Qed.

  Lemma bound_find H e f : reach alc alb dbg H e -> bound H f = None <-> map_find f (e_map e) = None.
  Proof.
    intros R. destruct (reach_inv alc alb dbg Halc Halb H e R) as (I & V). rewrite (bound_map _ _ H e I f V).
    destruct (map_find f (e_map e)); cbn; split; congruence.
  Qed.

  (** the size and the position of the object a call is made on *)
  Lemma size_of_live H h k i : live H h k i -> size_of H h = fsize H i.
  Proof. intros (L & _). unfold size_of. now rewrite L. Qed.

  Lemma safe_status H e x : reach alc alb dbg H e -> legal H x -> safe H e x FStatus.
  Proof.
    intros R L. assert (Nn : forall y, ~ needs H y FStatus -> exec_f alc alb dbg H e y FStatus = Ret None -> safe H e y FStatus).
    { intros y N E. exists None. split; [exact E|]. now apply ok_none. }
    destruct (reach_step alc alb dbg Halc Halb H e x R L) as (e1 & r & E & X & _).
    unfold exec, dispatch in E.
    destruct x as [f|f|f|f|f|d|f|f|a b|d|d|h n|h n|h off n|h d|h|h|h|h]; try (apply Nn; [cbn; tauto|reflexivity]).
    - (* NewSeq *) eapply status_case with (res := new_sequential e (length H) f); try reflexivity; auto.
      cbn [needs]. setoid_rewrite (bound_find _ _ f R). unfold new_sequential in *. destruct (map_find f (e_map e)) eqn:Ef.
      + destruct (map_index f (e_map e)). destruct (open_obj _ _ _ _ _); try discriminate. cbn [bind]. do 2 eexists. split; [reflexivity|].
        left. split; [reflexivity|discriminate].
      + do 2 eexists. split; [reflexivity|]. right. repeat split; auto. discriminate.
    - eapply status_case with (res := new_random e (length H) f); try reflexivity; auto.
      cbn [needs]. setoid_rewrite (bound_find _ _ f R). unfold new_random in *. destruct (map_find f (e_map e)) eqn:Ef.
      + destruct (map_index f (e_map e)). destruct (open_obj _ _ _ _ _); try discriminate. cbn [bind]. do 2 eexists. split; [reflexivity|].
        left. split; [reflexivity|discriminate].
      + do 2 eexists. split; [reflexivity|]. right. repeat split; auto. discriminate.
    - (* Remove *) eapply status_case with (res := remove_file dbg e f); try reflexivity; auto.
      cbn [needs]. setoid_rewrite (bound_find _ _ f R). unfold remove_file in *. destruct (map_find f (e_map e)) eqn:Ef.
      + destruct (remove_internal _ _ _ _); try discriminate. cbn [bind]. do 2 eexists. split; [reflexivity|].
        left. split; [reflexivity|discriminate].
      + do 2 eexists. split; [reflexivity|]. right. repeat split; auto. discriminate.
    - (* FileSize *) eapply status_case with (res := let! r := get_file_size e f in Ret (fst r)); try reflexivity; auto.
      { unfold exec_f, dispatch_f. now destruct (get_file_size e f). }
      cbn [needs]. setoid_rewrite (bound_find _ _ f R). unfold get_file_size in *. destruct (map_find f (e_map e)) eqn:Ef.
      + destruct (map_index f (e_map e)). destruct (size _ _); try discriminate. cbn [bind fst]. do 2 eexists. split; [reflexivity|].
        left. split; [reflexivity|discriminate].
      + do 2 eexists. split; [reflexivity|]. right. repeat split; auto. discriminate.
    - (* Rename *) eapply status_case with (res := rename_file dbg e a b); try reflexivity; auto.
      cbn [needs]. setoid_rewrite (bound_find _ _ a R). unfold rename_file in *. destruct (map_find a (e_map e)) eqn:Ef.
      + destruct (remove_internal _ _ _ _) as [q| | |]; try discriminate. cbn [bind]. destruct (map_index a (snd q)).
        do 2 eexists. split; [reflexivity|]. left. split; [reflexivity|discriminate].
      + do 2 eexists. split; [reflexivity|]. right. repeat split; auto. discriminate.
    - (* SRead *) eapply status_case with (res := let! r := seq_read e h n in Ret (fst r)); try reflexivity; auto.
      { unfold exec_f, dispatch_f. now destruct (seq_read e h n). }
      cbn [needs]. destruct X as (i & Lv & X). rewrite (size_of_live _ _ _ _ Lv).
      destruct (seq_read e h n) as [[[e2 s2] d2]| | |] eqn:Q; try discriminate. cbn [bind fst snd] in *. injection E as -> <-.
      exists e1, s2. split; [reflexivity|]. destruct (N.ltb_spec (fsize H i) (pos H h)); injection X as -> ->.
      + right. split; [discriminate|]. split; [|assumption]. unfold seq_read in Q. destruct (hget (e_open e) h) as [[| |]|]; try discriminate.
        destruct (read _ _ _ _) as [[s d]| | |]; try discriminate. cbn [bind fst snd] in Q. destruct s; [discriminate|]. now injection Q as <- _ _ _.
      + left. split; [reflexivity|lia].
    - (* SSkip *) eapply status_case with (res := seq_skip e h n); try reflexivity; auto.
      cbn [needs]. destruct X as (i & Lv & X). rewrite (size_of_live _ _ _ _ Lv).
      destruct (seq_skip e h n) as [[e2 s2]| | |] eqn:Q; try discriminate. cbn [bind fst snd] in *. injection E as -> <-.
      exists e1, s2. split; [reflexivity|]. destruct (N.ltb_spec (fsize H i) (pos H h)); injection X as ->.
      + right. split; [discriminate|]. split; [|assumption]. unfold seq_skip in Q. destruct (hget (e_open e) h) as [[| |]|]; try discriminate.
        destruct (size _ _) as [s| | |]; try discriminate. cbn [bind fst snd] in Q. destruct (s <? _)%N; [now injection Q as <-|discriminate].
      + left. split; [reflexivity|lia].
    - (* RRead *) eapply status_case with (res := let! r := rand_read e h off n in Ret (e, fst r)); try reflexivity; auto.
      { unfold exec_f, dispatch_f. now destruct (rand_read e h off n). }
      cbn [needs]. destruct X as (i & Lv & X). rewrite (size_of_live _ _ _ _ Lv).
      destruct (rand_read e h off n) as [[s2 d2]| | |] eqn:Q; try discriminate. cbn [bind fst snd] in *. injection E as -> <-.
      exists e1, s2. split; [reflexivity|]. destruct (N.ltb_spec (fsize H i) off); injection X as -> ->.
      + right. split; [discriminate|]. auto.
      + left. split; [reflexivity|lia].
  Qed.

  (** the count of a state that a name or an object stands for *)
  Lemma file_refs H e I a : HInv nobody None H e I -> alive (e_mem e) a -> exists f, hget (m_files (e_mem e)) a = Some f /\
    (fs_refs f > 0)%Z /\ fs_size f = fsize H (I a) /\ NoDup (fs_blocks f) /\ frep (m_blocks (e_mem e)) (fs_blocks f) (contents H (I a)).
  Proof.
    intros V (f & Hf). exists f. split; [exact Hf|]. pose proof (hi_core _ _ _ _ _ V) as K.
    destruct (mi_file _ _ _ (co_mem _ _ _ _ _ _ K) a f Hf) as (K1 & K2 & K3 & K4).
    destruct (proj1 (co_alive _ _ _ _ _ _ K a)) as [Q|[]]; [exists f; exact Hf|]. repeat split; auto. lia.
  Qed.
  Lemma file_refs_lt H e I a f : HInv nobody None H e I -> (N.of_nat (live_count H) < 2 ^ 31 - 2)%N ->
    hget (m_files (e_mem e)) a = Some f -> (fs_refs f < 2 ^ 31 - 1)%Z.
  Proof.
    intros V L Hf. pose proof (hi_core _ _ _ _ _ V) as K.
    destruct (mi_file _ _ _ (co_mem _ _ _ _ _ _ K) a f Hf) as (K1 & _). rewrite (hi_count _ _ _ _ _ V) in L. cbn [plist length Nat.add] in L.
    assert (Q1 : count_occ Nat.eq_dec (map snd (e_map e)) a <= 1) by (apply NoDup_count_occ, (co_vals _ _ _ _ _ _ K)).
    assert (Q2 : count_occ Nat.eq_dec (map (fun p => ofile_state (snd p)) (e_open e)) a <= length (e_open e)).
    { etransitivity; [apply count_occ_bound|]. rewrite map_length. lia. }
    unfold nrefs in K1. lia.
  Qed.

  (** NewWritableFile, then delete of the new object *)
  Lemma create_delete H e f m0 a fs fm : reach alc alb dbg H e -> legal H (NewWrite f) ->
    (0 < fs_refs fs < 2 ^ 31 - 1)%Z ->
    new_writable alc e (length H) f = (let! e' := open_obj e (putf m0 a fs) fm (length H) (OWrite a) in Ret (e', SOk)) ->
    exists evs, map ev_call evs = [Delete (length H); NewWrite f] /\ reach alc alb dbg (evs ++ H) (mk_env (putf m0 a fs) fm (e_open e)).
  Proof.
    intros R L P E. destruct (ref_unref dbg m0 a fs P) as (m' & E1 & E2).
    destruct (reach_inv alc alb dbg Halc Halb H e R) as (I & V).
    assert (Hh : hget (e_open e) (length H) = None).
    { destruct (hget (e_open e) (length H)) eqn:Q; auto. apply (hi_lt _ _ _ _ _ _ _ V) in Q. lia. }
    destruct (reach_step alc alb dbg Halc Halb H e (NewWrite f) R L) as (e1 & r & X1 & _ & R1).
    unfold exec, dispatch in X1. rewrite E in X1. unfold open_obj in X1. cbn [ofile_state] in X1. rewrite E1 in X1. cbn [bind fst snd] in X1.
    injection X1 as <- <-. set (ev1 := mk_event (NewWrite f) (RStat SOk)) in *.
    assert (L2 : legal (ev1 :: H) (Delete (length H))).
    { destruct (reach_inv alc alb dbg Halc Halb _ _ R1) as (I1 & V1).
      assert (Q : hget (hput (e_open e) (length H) (OWrite a)) (length H) = Some (OWrite a)) by apply hget_hput_eq.
      destruct (hi_obj _ _ _ _ _ V1 (length H) (OWrite a) Q) as (O1 & O2 & _). cbn [legal]. do 2 eexists. split; [exact O1|exact O2]. }
    destruct (reach_step alc alb dbg Halc Halb _ _ (Delete (length H)) R1 L2) as (e2 & r2 & X2 & _ & R2).
    unfold exec, dispatch, delete_obj in X2. cbn [e_open e_mem e_map] in X2. rewrite hget_hput_eq in X2. cbn [ofile_state] in X2. rewrite E2 in X2.
    cbn [bind fst snd] in X2. injection X2 as <- <-.
    exists [mk_event (Delete (length H)) (RStat SOk); ev1]. split; [reflexivity|].
    rewrite Nat.eqb_refl, hdel_hdel, hdel_notin in R2 by exact Hh. exact R2.
  Qed.

  Lemma safe_create H e f ft : reach alc alb dbg H e -> legal H (NewWrite f) -> ft <> FStatus -> safe H e (NewWrite f) ft.
  Proof.
    intros R L Nf. unfold safe. assert (Ex : exec_f alc alb dbg H e (NewWrite f) ft = new_writable_f alc e f ft) by (destruct ft; try reflexivity; congruence).
    rewrite Ex. clear Ex. destruct (reach_inv alc alb dbg Halc Halb H e R) as (I & V). pose proof (hi_core _ _ _ _ _ V) as K.
    pose proof (bound_find H e f R) as Bf. unfold new_writable_f.
    destruct (map_find f (e_map e)) as [a|] eqn:Ef.
    - assert (Ha := Core_find _ _ _ _ _ _ _ _ K Ef). destruct (file_refs H e I a V Ha) as (fs & Hf & P & Sz & ND & Rp).
      pose proof (file_refs_lt H e I a fs V L Hf) as Lt.
      unfold truncate, getf. rewrite Hf. cbn [bind].
      destruct (free_blocks_ok (fs_blocks fs) (m_blocks (e_mem e)) ND) as (bh' & Eb & _ & _).
      { intros b Hb. eapply frep_live; eauto. }
      rewrite Eb. cbn [bind].
      destruct ft; try (eexists; split; [reflexivity|]; apply ok_none; cbn [needs]; try tauto; intros Q; apply Bf in Q; discriminate).
      eexists. split; [reflexivity|]. split; [split; [intros _; exact Logic.I|discriminate]|]. intros t Et. injection Et as <-.
      destruct (create_delete H e f (mk_mem (m_files (e_mem e)) bh') a (mk_fstate (fs_refs fs) [] 0) (e_map e) R L) as (evs & M & Rv).
      { cbn [fs_refs]. lia. }
      { unfold new_writable, truncate, getf. rewrite Ef, Hf. cbn [bind]. rewrite Eb. reflexivity. }
      exists evs. split; [exact M|]. split; [exact Rv|auto].
    - destruct (new_file alc (e_mem e)) as [m1 a] eqn:En. unfold new_file in En. injection En as <- <-.
      set (a := alc (dom (m_files (e_mem e)))). destruct (Halc (dom (m_files (e_mem e)))) as (Fr & _). fold a in Fr. apply not_dom_hget in Fr.
      unfold ref, getf. cbn [putf m_files m_blocks]. rewrite hget_hput_eq. cbn [bind fs_refs fs_blocks fs_size].
      destruct (Z.ltb_spec 0 (2 ^ 31 - 1)); [|lia]. cbn [bind]. unfold putf. cbn [m_files m_blocks]. rewrite hput_hput.
      assert (Bn : bound H f = None) by now apply Bf.
      destruct ft; try (eexists; split; [reflexivity|]; apply ok_none; cbn [needs]; tauto).
      + (* FImpl *) eexists. split; [reflexivity|]. split; [split; [intros _; exact Logic.I|discriminate]|]. intros t Et. injection Et as <-.
        destruct (create_delete H e f (e_mem e) a (mk_fstate (0 + 1) [] 0) (map_set f a (e_map e)) R L) as (evs & M & Rv).
        { cbn [fs_refs]. lia. }
        { unfold new_writable, new_file, ref, getf, putf. rewrite Ef. fold a. cbn [m_files m_blocks]. rewrite hget_hput_eq.
          cbn [bind fs_refs fs_blocks fs_size]. destruct (Z.ltb_spec 0 (2 ^ 31 - 1)); [|lia]. cbn [bind]. rewrite hput_hput. reflexivity. }
        exists evs. split; [exact M|]. split; [exact Rv|auto].
      + (* FFile *) eexists. split; [reflexivity|]. now apply ok_same.
      + (* FNode *) eexists. split; [reflexivity|]. split; [split; [intros _; exact Bn|discriminate]|]. intros t Et. injection Et as <-.
        exists []. split; [reflexivity|]. split; [|auto]. cbn [th_env app m_files m_blocks].
        rewrite Nat.eqb_refl, hdel_hdel, hdel_notin by exact Fr.
        destruct e as [[mf mb] mp op]. exact R.
  Qed.

  Lemma safe_reader H e x f ft : reach alc alb dbg H e -> x = NewSeq f \/ x = NewRand f -> ft <> FStatus -> safe H e x ft.
  Proof.
    intros R Hx Nf. unfold safe. assert (Ex : exec_f alc alb dbg H e x ft = new_reader_f e f ft) by (destruct Hx as [->| ->]; destruct ft; try reflexivity; congruence).
    rewrite Ex. clear Ex. pose proof (bound_find H e f R) as Bf. unfold new_reader_f.
    assert (Nd : needs H x ft <-> ft = FImpl /\ map_find f (e_map e) <> None).
    { destruct Hx as [->| ->]; destruct ft; cbn [needs]; try (split; [tauto|intros (Q & _); discriminate]); try congruence; rewrite Bf; tauto. }
    assert (Sm : as_if H x ft = [] /\ lost_files x ft = 0 /\ lost_blocks x ft = 0) by (destruct Hx as [->| ->]; destruct ft; auto).
    destruct Sm as (S1 & S2 & S3).
    destruct (map_find f (e_map e)) as [a|] eqn:Ef.
    - destruct ft; try (eexists; split; [reflexivity|]; apply ok_none; rewrite Nd; intros (Q & _); discriminate); [].
      eexists. split; [reflexivity|]. apply ok_same; auto. apply Nd. split; [reflexivity|discriminate].
    - exists None. split; [reflexivity|]. apply ok_none. rewrite Nd. intros (_ & Q). congruence.
  Qed.

  Lemma safe_appendable H e f ft : reach alc alb dbg H e -> legal H (NewAppend f) -> ft <> FStatus -> safe H e (NewAppend f) ft.
  Proof.
    intros R (Lb & L) Nf. unfold safe. assert (Ex : exec_f alc alb dbg H e (NewAppend f) ft = new_appendable_f e f ft) by (destruct ft; try reflexivity; congruence).
    rewrite Ex. clear Ex. destruct (reach_inv alc alb dbg Halc Halb H e R) as (I & V). pose proof (hi_core _ _ _ _ _ V) as K.
    pose proof (bound_find H e f R) as Bf. unfold new_appendable_f.
    destruct (map_find f (e_map e)) as [a|] eqn:Ef; [|exfalso; apply Lb; now apply Bf].
    assert (Ha := Core_find _ _ _ _ _ _ _ _ K Ef). rewrite (index_find _ _ _ Ef).
    assert (Na : a =? 0 = false).
    { apply Nat.eqb_neq. intros ->. destruct Ha as (q & Hq). rewrite (mi_null _ _ _ (co_mem _ _ _ _ _ _ K)) in Hq. discriminate. }
    rewrite Na. destruct ft; try (eexists; split; [reflexivity|]; apply ok_none; cbn [needs]; tauto).
    eexists. split; [reflexivity|]. destruct e as [m fm op]. cbn [e_mem e_open e_map] in *. apply ok_same; auto.
  Qed.

  Lemma safe_children H e d ft : reach alc alb dbg H e -> safe H e (Children d) ft.
  Proof.
    intros R. unfold safe. destruct ft; try (eexists; split; [reflexivity|]; apply ok_none; cbn [needs]; tauto).
    unfold exec_f, dispatch_f, children_f. eexists. split; [reflexivity|].
    destruct (reach_inv alc alb dbg Halc Halb H e R) as (I & V). pose proof (children_ok _ _ _ _ _ d V) as X.
    assert (U : forall l, Expect H (Children d) (RNames l) -> length l = length (children d (e_map e))).
    { intros l (l1 & E1 & S1 & M1). injection E1 as <-. destruct X as (l2 & E2 & S2 & M2). injection E2 as <-.
      assert (ND : forall k, StronglySorted (fun a b => lex_ltb a b = true) k -> NoDup k).
      { induction 1 as [|x0 k Hk IH Hx]; constructor; [|exact IH]. intros Hin. rewrite Forall_forall in Hx. specialize (Hx _ Hin).
        clear -Hx. induction x0 as [|c x0 IH]; cbn [lex_ltb] in Hx; [discriminate|]. rewrite N.ltb_irrefl in Hx. auto. }
      apply Nat.le_antisymm; (apply NoDup_incl_length; [now apply ND|]); intros g Hg; [apply M2, M1, Hg|apply M1, M2, Hg]. }
    destruct (Nat.ltb_spec n (length (children d (e_map e)))) as [Lt|Ge].
    - apply ok_same; auto. cbn [needs]. eauto.
    - apply ok_none. cbn [needs]. intros (l & X' & Lt). rewrite (U l X') in Lt. lia.
  Qed.

  Lemma safe_rename H e a b ft : reach alc alb dbg H e -> ft <> FStatus -> safe H e (Rename a b) ft.
  Proof.
    intros R Nf. unfold safe. assert (Ex : exec_f alc alb dbg H e (Rename a b) ft = rename_file_f dbg e a b ft) by (destruct ft; try reflexivity; congruence).
    rewrite Ex. clear Ex. destruct (reach_inv alc alb dbg Halc Halb H e R) as (I & V). pose proof (hi_core _ _ _ _ _ V) as K.
    pose proof (bound_find H e a R) as Ba. pose proof (bound_find H e b R) as Bb. unfold rename_file_f.
    destruct (map_find a (e_map e)) as [va|] eqn:Ea.
    2:{ eexists. split; [reflexivity|]. apply ok_none. destruct ft; cbn [needs]; try tauto. }
    assert (Gone : forall g, map_find b (map_erase b (e_map e)) = g -> g = None).
    { intros g <-. rewrite find_erase by apply K. now rewrite str_eqb_refl. }
    destruct (map_find b (e_map e)) as [vb|] eqn:Eb.
    - destruct (Core_remove dbg _ _ _ _ _ _ b vb K Eb) as (m' & Er & _ & _). rewrite Er. cbn [bind fst snd].
      destruct ft; try (eexists; split; [reflexivity|]; apply ok_none; cbn [needs]; tauto).
      rewrite (Gone _ eq_refl).
      assert (G : thrown_ok H (Rename a b) FNode (Some (mk_thrown (mk_env m' (map_erase b (e_map e)) (e_open e)) 0 0))).
      { apply ok_one with (e := e) (y := Remove b); try reflexivity; auto.
        - cbn [needs]. rewrite Ba. discriminate.
        - cbn [as_if]. destruct (bound H b); [reflexivity|]. assert (None <> None) by (rewrite <- (proj1 Bb eq_refl) at 1; discriminate). congruence.
        - intros e1 ev E. unfold exec, dispatch, remove_file in E. rewrite Eb, Er in E. cbn [bind fst snd] in E. now injection E as <- _. }
      destruct (map_find a (map_erase b (e_map e))); eexists; (split; [reflexivity|exact G]).
    - unfold remove_internal. rewrite Eb. cbn [bind fst snd]. rewrite Ea, Eb.
      destruct ft; try (eexists; split; [reflexivity|]; apply ok_none; cbn [needs]; tauto).
      eexists. split; [reflexivity|]. destruct e as [m fm op]. cbn [e_mem e_open e_map] in *. apply ok_same; auto.
      + cbn [needs]. rewrite Ba. discriminate.
      + cbn [as_if]. now rewrite (proj2 Bb eq_refl).
  Qed.

  Lemma safe_append H e h d ft : reach alc alb dbg H e -> legal H (WAppend h d) -> ft <> FStatus -> safe H e (WAppend h d) ft.
  Proof.
    intros R Lg Nf. pose proof Lg as (i & L & Hd).
    unfold safe. assert (Ex : exec_f alc alb dbg H e (WAppend h d) ft = file_append_f alb e h d ft) by (destruct ft; try reflexivity; congruence).
    rewrite Ex. clear Ex. destruct (reach_inv alc alb dbg Halc Halb H e R) as (I & V). pose proof (hi_core _ _ _ _ _ V) as K.
    destruct (hi_live _ _ _ _ _ _ _ _ V L (not_pending h)) as (o & Eo & Ek & Ei).
    destruct o as [| |a]; try discriminate. cbn [ofile_state] in Ei. subst i.
    pose proof (Core_obj _ _ _ _ _ _ _ _ K Eo) as Ha. cbn [ofile_state] in Ha.
    destruct (file_refs H e I a V Ha) as (fs & Hf & P & Sz & ND & Rp).
    destruct (Core_append alb _ _ _ _ _ _ a d Halb K Ha Hd) as (m' & E & _ & _).
    unfold append, getf in E. rewrite Hf in E. cbn [bind] in E.
    destruct (append_loop alb (length d) (m_blocks (e_mem e)) fs d) as [r| | |] eqn:El; try discriminate.
    unfold file_append_f, getf. rewrite Eo, Hf. cbn [bind].
    assert (Sl : (fs_size fs + N.of_nat (length d) < 2 ^ 64)%N) by (rewrite Sz; exact Hd).
    assert (So : size_of H h = fs_size fs) by (rewrite (size_of_live _ _ _ _ L), Sz; reflexivity).
    destruct (count ft) as [n|] eqn:C.
    2:{ rewrite (append_f_other alb _ _ _ _ _ _ C El). cbn [bind]. eexists. split; [reflexivity|]. apply ok_none.
        destruct ft; cbn [needs]; try tauto; discriminate. }
    pose proof (append_f_hit alb Halb _ _ _ _ ft n _ Sl (le_n _) El C) as G.
    assert (Nd : needs H (WAppend h d) ft <-> kept (size_of H h) n < length d).
    { destruct ft; try discriminate; injection C as ->; reflexivity. }
    rewrite So, kept_kept_N in Nd.
    destruct (N.ltb_spec (kept_N (fs_size fs) n) (N.of_nat (length d))) as [Lt|Ge].
    - destruct G as (bh' & f' & E1 & E2). rewrite E1. cbn [bind]. eexists. split; [reflexivity|].
      set (k := N.to_nat (kept_N (fs_size fs) n)) in *.
      apply ok_one with (e := e) (y := WAppend h (firstn k d)); try reflexivity; auto.
      + cbn [legal]. exists (I a). split; [exact L|]. rewrite firstn_length. lia.
      + apply Nd. unfold k. lia.
      + destruct ft; try discriminate; injection C as ->; cbn [as_if]; rewrite So, kept_kept_N; reflexivity.
      + intros e1 ev Q. unfold exec, dispatch, file_append in Q. rewrite Eo in Q. unfold append, getf in Q. rewrite Hf in Q. cbn [bind] in Q.
        rewrite (E2 (length (firstn k d))) in Q by (rewrite firstn_length; lia). cbn [bind fst snd] in Q. now injection Q as <- _.
    - rewrite G. cbn [bind]. eexists. split; [reflexivity|]. apply ok_none. rewrite Nd. lia.
  Qed.

  Theorem every_throw H e x ft : reach alc alb dbg H e -> legal H x -> safe H e x ft.
  Proof.
    intros R L. assert (D : ft = FStatus \/ ft <> FStatus) by (destruct ft; auto; right; discriminate).
    destruct D as [->|Nf]; [now apply safe_status|].
    destruct x as [f|f|f|f|f|d|f|f|a b|d|d|h n|h n|h off n|h d|h|h|h|h];
      try (exists None; split; [destruct ft; try reflexivity; congruence|apply ok_none; destruct ft; cbn [needs]; try tauto; congruence]).
    - eapply safe_reader; eauto.
    - eapply safe_reader; eauto.
    - now apply safe_create.
    - now apply safe_appendable.
    - now apply safe_children.
    - now apply safe_rename.
    - now apply safe_append.
  Qed.
End Calls.
