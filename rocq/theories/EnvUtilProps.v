(** EnvUtilProps.v -- property theorems C52, C53 and C71 (env.cc helpers). *)
From Coq Require Import List Arith NArith ZArith Lia Bool.
From Verif Require Import Outcome Heap Status MemEnv MemEnvSpec MemEnvMem MemEnvMap MemEnvProofs MemEnvProps EnvUtil EnvUtilSpec EnvUtilProofs.
Import ListNotations.
Local Open Scope outcome_scope.

(** C52 *)
Theorem C52_write_then_read :
  forall alc alb dbg H e d f sync, runs alc alb dbg H e -> legal H (NewWrite f) -> (N.of_nat (length d) < 2 ^ 64)%N ->
    exists H1 e1 tr1, do_write (history * env) (mem_io alc alb dbg) (H, e) d f sync = Ret ((H1, e1), tr1, SOk) /\
      runs alc alb dbg H1 e1 /\
      (forall fuel, length d < fuel -> exists H2 e2 tr2,
         read_file (history * env) (mem_io alc alb dbg) fuel (H1, e1) f = Ret ((H2, e2), tr2, SOk, d) /\
         (forall h, live_b H2 h = live_b H h)) /\
      (forall h, live_b H1 h = live_b H h) /\
      (forall g, g <> f -> bound H1 g = bound H g /\ forall i, bound H g = Some i -> contents H1 i = contents H i).
Proof.
  intros alc alb dbg H e d f sync (A1 & A2 & R) L Hd.
  destruct (mem_do_write alc alb dbg A1 A2 H e d f sync R L Hd) as (H1 & e1 & tr1 & i & E & R1 & B1 & C1 & Bo & Co & Ni & Lb).
  exists H1, e1, tr1. split; [exact E|]. split; [split; [exact A1|split; [exact A2|exact R1]]|].
  assert (Lc : live_count H1 = live_count H).
  { destruct (reach_inv alc alb dbg A1 A2 H e R) as (I & V). destruct (reach_inv alc alb dbg A1 A2 H1 e1 R1) as (I1 & V1).
    rewrite (hi_count _ _ _ _ _ V), (hi_count _ _ _ _ _ V1). cbn [plist length Nat.add].
    replace (length (e_open e)) with (length (dom (e_open e))) by apply map_length.
    replace (length (e_open e1)) with (length (dom (e_open e1))) by apply map_length.
    apply Permutation.Permutation_length, Permutation.NoDup_Permutation.
    - apply (co_hwf _ _ _ _ _ _ (hi_core _ _ _ _ _ V1)).
    - apply (co_hwf _ _ _ _ _ _ (hi_core _ _ _ _ _ V)).
    - intros h. rewrite !dom_hget.
      pose proof (live_b_hget _ _ _ _ _ h V) as Q. pose proof (live_b_hget _ _ _ _ _ h V1) as Q1. rewrite Lb in Q1.
      pose proof (not_pending h) as NP. tauto. }
  split; [|split; [exact Lb|]].
  - intros fuel Hf. destruct (mem_read_file alc alb dbg A1 A2 fuel H1 e1 f i R1 B1) as (H2 & e2 & tr2 & E2 & _ & _ & Lb2).
    + cbn [legal] in *. now rewrite Lc.
    + now rewrite C1.
    + exists H2, e2, tr2. rewrite C1 in E2. split; [exact E2|]. intros h. now rewrite Lb2.
  - intros g Hg. split; [now apply Bo|]. intros j Bj. apply Co. intros ->. now apply (Ni g).
Qed.
Print Assumptions C52_write_then_read.

(** ReadFileToString returns the whole file, whatever is in it. *)
Theorem C52_read_existing :
  forall alc alb dbg H e f i fuel, runs alc alb dbg H e -> bound H f = Some i -> legal H (NewSeq f) -> length (contents H i) < fuel ->
    exists H' e' tr, read_file (history * env) (mem_io alc alb dbg) fuel (H, e) f = Ret ((H', e'), tr, SOk, contents H i) /\
      runs alc alb dbg H' e' /\ (forall h, live_b H' h = live_b H h) /\
      (forall g, bound H' g = bound H g) /\ (forall j, contents H' j = contents H j).
Proof.
  intros alc alb dbg H e f i fuel (A1 & A2 & R) B L Hf.
  destruct (mem_read_file alc alb dbg A1 A2 fuel H e f i R B L Hf) as (H' & e' & tr & E & R' & (Q1 & Q2) & Lb).
  exists H', e', tr. split; [exact E|]. split; [split; [exact A1|split; [exact A2|exact R']]|]. auto.
Qed.
Print Assumptions C52_read_existing.
Theorem C52_read_missing :
  forall alc alb dbg H e f fuel, runs alc alb dbg H e -> bound H f = None -> legal H (NewSeq f) ->
    exists H' tr, read_file (history * env) (mem_io alc alb dbg) fuel (H, e) f = Ret ((H', e), tr, SErr IOError f msg_not_found, []) /\
      runs alc alb dbg H' e /\ (forall g, bound H' g = bound H g).
Proof.
  intros alc alb dbg H e f fuel (A1 & A2 & R) B L.
  destruct (mem_read_missing alc alb dbg A1 A2 fuel H e f R B L) as (H' & tr & E & R' & Q1 & _).
  exists H', tr. split; [exact E|]. split; [split; [exact A1|split; [exact A2|exact R']]|]. exact Q1.
Qed.
Print Assumptions C52_read_missing.

(** C53, for every environment: any state type, any answers. *)
Theorem C53_write_returns_first_error :
  forall (S : Type) (io : S -> io_call -> outcome (S * io_res)) s d f sync s' tr st,
    do_write S io s d f sync = Ret (s', tr, st) -> st = first_error tr.
Proof.
  intros S io s d f sync s' tr st E.
  destruct (do_write_trace S io _ _ _ _ _ _ _ E) as [(r & -> & -> & _)|(o & r0 & r1 & rs & rc & rd & rr & K0 & P0 & Et & Es)].
  - cbn [first_error]. now destruct (io_status r).
  - cbv zeta in *. subst st. rewrite Et. clear Et E. cbn [app first_error]. rewrite K0.
    destruct (io_status r1) eqn:S1; cbn [ok andb]; [|reflexivity]. destruct sync; cbn [ok app first_error].
    + destruct (io_status rs) eqn:S2; cbn [ok app first_error]; [|reflexivity]. destruct (io_status rc) eqn:S3; reflexivity.
    + destruct (io_status rc) eqn:S3; cbn [ok app first_error]; rewrite ?S3; reflexivity.
Qed.
Print Assumptions C53_write_returns_first_error.

(** If creating fails nothing else is called; otherwise the object is deleted
    exactly once, after its last use, and the file is removed -- as the very
    last call -- exactly when an error is returned. *)
Theorem C53_write_cleans_up :
  forall (S : Type) (io : S -> io_call -> outcome (S * io_res)) s d f sync s' tr st,
    do_write S io s d f sync = Ret (s', tr, st) ->
    (exists r, tr = [(INewWritable f, r)] /\ io_status r <> SOk) \/
    (exists r o, nth_error tr 0 = Some (INewWritable f, r) /\ io_status r = SOk /\ io_ptr r = PObj o /\
       deleted_once tr o /\
       (st <> SOk <-> exists x, In (IRemove f, x) tr) /\
       (forall g x, In (IRemove g, x) tr -> exists t, tr = t ++ [(IRemove g, x)] /\ g = f /\ forall y, ~ In (IRemove g, y) t)).
Proof.
  intros S io s d f sync s' tr st E.
  destruct (do_write_trace S io _ _ _ _ _ _ _ E) as [(r & -> & -> & Hr)|(o & r0 & r1 & rs & rc & rd & rr & K0 & P0 & Et & Es)].
  - left. eauto.
  - right. exists r0, o. cbv zeta in *. subst st.
    split; [rewrite Et; reflexivity|]. split; [exact K0|]. split; [exact P0|].
    set (st3 := if ok (if ok (io_status r1) && sync then io_status rs else io_status r1) then io_status rc
                else if ok (io_status r1) && sync then io_status rs else io_status r1) in *.
    set (pre := [(INewWritable f, r0); (IAppend o d, r1)] ++ (if ok (io_status r1) && sync then [(ISync o, rs)] else []) ++
                (if ok (if ok (io_status r1) && sync then io_status rs else io_status r1) then [(IClose o, rc)] else [])).
    assert (Et' : tr = pre ++ (IDelete o, rd) :: (if ok st3 then [] else [(IRemove f, rr)])).
    { rewrite Et. unfold pre. rewrite <- !app_assoc. reflexivity. }
    assert (Pre : forall c x, In (c, x) pre -> c <> IDelete o /\ forall g, c <> IRemove g).
    { intros c x Hc. unfold pre in Hc. rewrite !in_app_iff in Hc.
      destruct Hc as [[Q|[Q|[]]]|[Hc|Hc]]; try (injection Q as <- <-; split; discriminate).
      - destruct (ok (io_status r1) && sync); [|contradiction]. destruct Hc as [Q|[]]. injection Q as <- <-. split; discriminate.
      - destruct (ok _); [|contradiction]. destruct Hc as [Q|[]]. injection Q as <- <-. split; discriminate. }
    split; [|split].
    + exists pre, rd, (if ok st3 then [] else [(IRemove f, rr)]). split; [exact Et'|]. split.
      * intros c x Hc. now apply (Pre c x).
      * intros c x. destruct (ok st3); [easy|]. intros [Q|[]]. injection Q as <- <-. cbn. auto.
    + rewrite Et'. split.
      * intros Hs. destruct (ok st3) eqn:O3; [apply ok_SOk in O3; contradiction|]. exists rr. rewrite in_app_iff. cbn. auto.
      * intros (x & Hx). rewrite in_app_iff in Hx. destruct Hx as [Hx|[Hx|Hx]]; [exfalso; destruct (Pre _ _ Hx) as (_ & Q); now apply (Q f)|discriminate|].
        destruct (ok st3) eqn:O3; [easy|]. intros Q. rewrite Q in O3. discriminate.
    + intros g x Hx. rewrite Et' in Hx. rewrite in_app_iff in Hx.
      destruct Hx as [Hx|[Hx|Hx]]; [exfalso; destruct (Pre _ _ Hx) as (_ & Q); now apply (Q g)|discriminate|].
      destruct (ok st3) eqn:O3; [easy|]. destruct Hx as [Q|[]]. injection Q as <- <-. exists (pre ++ [(IDelete o, rd)]).
      split; [rewrite Et', <- app_assoc; reflexivity|]. split; [reflexivity|]. intros y Hy. rewrite in_app_iff in Hy.
      destruct Hy as [Hy|[Hy|[]]]; [destruct (Pre _ _ Hy) as (_ & Q); now apply (Q f)|discriminate].
Qed.
Print Assumptions C53_write_cleans_up.

(** After the first error only the clean-up is called; Close is called before
    the deletion exactly if no earlier call failed. *)
Theorem C53_an_error_stops_the_work :
  forall (S : Type) (io : S -> io_call -> outcome (S * io_res)) s d f sync s' tr st,
    do_write S io s d f sync = Ret (s', tr, st) ->
    (forall t1 c r t2, tr = t1 ++ (c, r) :: t2 -> first_error t1 <> SOk -> (exists o, c = IDelete o) \/ c = IRemove f) /\
    (forall t1 o r t2, tr = t1 ++ (IDelete o, r) :: t2 ->
       ((exists x, In (IClose o, x) t1) <-> forall c x, In (c, x) t1 -> c <> IClose o -> io_status x = SOk)).
Proof.
  intros S io s d f sync s' tr st E.
  destruct (do_write_trace S io _ _ _ _ _ _ _ E) as [(r & -> & -> & Hr)|(o & r0 & r1 & rs & rc & rd & rr & K0 & P0 & Et & Es)].
  - split.
    + intros [|? [|? ?]] c r' t2 Q He; cbn in Q; try discriminate. now elim He.
    + intros [|? [|? ?]] o r' t2 Q; cbn in Q; discriminate.
  - cbv zeta in *. clear Es E. rewrite Et. clear Et tr.
    assert (OK : forall x, ok x = true -> x = SOk) by (intros x Q; now apply ok_SOk).
    assert (NO : forall x, ok x = false -> x <> SOk) by (intros x Q ->; discriminate).
    destruct (ok (io_status r1)) eqn:O1, sync; cbn [andb]; try destruct (ok (io_status rs)) eqn:O2; rewrite ?O1;
      try destruct (ok (io_status rc)) eqn:O3; rewrite ?O1, ?O2; cbn [app];
      repeat match goal with Q : ok _ = true |- _ => apply OK in Q | Q : ok _ = false |- _ => apply NO in Q end;
      (split; [intros t1 c r t2 Q He; repeat (destruct t1 as [|? t1]; cbn in Q;
         [injection Q; intros; subst; cbn in He; rewrite ?K0, ?O1, ?O2, ?O3 in He; cbn in He;
          first [now elim He|left; eexists; reflexivity|right; reflexivity]
         |injection Q as <- Q; try discriminate Q])
       |intros t1 o' r t2 Q; repeat (destruct t1 as [|? t1]; cbn in Q;
         [first [discriminate Q
                |injection Q; intros; subst; cbn [In]; split;
                 [intros (x & Hx) c y Hc Hn; decompose [or] Hc; decompose [or] Hx;
                  repeat match goal with Z : (_, _) = (_, _) |- _ => injection Z; clear Z; intros; subst end; try discriminate; try contradiction; congruence
                 |intros Ha; first [eexists; solve [eauto 8] | exfalso; first [
                     apply O1; apply (Ha (IAppend o' d)); [solve [auto 8]|discriminate]
                   | apply O2; apply (Ha (ISync o')); [solve [auto 8]|discriminate]]]]]
         |injection Q as <- Q; try discriminate Q])]).
    all: destruct t1; discriminate Q.
Qed.
Print Assumptions C53_an_error_stops_the_work.

(** OK is returned only after the data was appended, synced if asked, and the
    file closed, all successfully, in this order. *)
Theorem C53_write_ok_means_done :
  forall (S : Type) (io : S -> io_call -> outcome (S * io_res)) s d f sync s' tr,
    do_write S io s d f sync = Ret (s', tr, SOk) ->
    exists o, map fst tr = [INewWritable f; IAppend o d] ++ (if sync then [ISync o] else []) ++ [IClose o; IDelete o] /\
      (forall c x, In (c, x) tr -> c <> IDelete o -> io_status x = SOk).
Proof.
  intros S io s d f sync s' tr E.
  destruct (do_write_trace S io _ _ _ _ _ _ _ E) as [(r & -> & Hr & Hn)|(o & r0 & r1 & rs & rc & rd & rr & K0 & P0 & Et & Es)]; [congruence|].
  exists o. cbv zeta in *. 
  assert (S1 : io_status r1 = SOk).
  { destruct (io_status r1) eqn:Q; [reflexivity|]. cbn [ok andb] in Es. discriminate. }
  rewrite S1 in Es, Et. cbn [ok andb] in Es, Et. destruct sync; cbn [ok app] in Es, Et.
  - destruct (io_status rs) eqn:S2; cbn [ok app] in Es, Et; [|discriminate]. rewrite <- Es in Et. cbn [ok] in Et. rewrite Et. split; [reflexivity|].
    intros c x Hc Hd. cbn in Hc. destruct Hc as [Q|[Q|[Q|[Q|[Q|[]]]]]]; injection Q as <- <-; congruence.
  - rewrite <- Es in Et. cbn [ok] in Et. rewrite Et. split; [reflexivity|].
    intros c x Hc Hd. cbn in Hc. destruct Hc as [Q|[Q|[Q|[Q|[]]]]]; injection Q as <- <-; congruence.
Qed.
Print Assumptions C53_write_ok_means_done.

(** The helper itself adds no undefined behaviour: if the environment answers
    every call and keeps the contract of env.h (a file object with every OK),
    it returns. *)
Theorem C53_write_returns :
  forall (S : Type) (io : S -> io_call -> outcome (S * io_res)) s d f sync,
    (forall s c, exists s' r, io s c = Ret (s', r)) ->
    (forall s f s' r, io s (INewWritable f) = Ret (s', r) -> io_status r = SOk -> exists o, io_ptr r = PObj o) ->
    exists s' tr st, do_write S io s d f sync = Ret (s', tr, st).
Proof.
  intros S io s d f sync T P. unfold do_write, del, call.
  destruct (T s (INewWritable f)) as (s0 & r0 & E0). rewrite E0. cbn [bind fst snd].
  destruct (ok (io_status r0)) eqn:O0; cbn [negb]; [|eauto]. apply ok_SOk in O0.
  destruct (P s f s0 r0 E0 O0) as (o & Po). rewrite Po. cbn [deref bind].
  destruct (T s0 (IAppend o d)) as (s1 & r1 & E1). rewrite E1. cbn [bind fst snd].
  assert (G : forall s2 (tr2 : trace) r2, exists s' tr st,
     (let! (s, tr, r) := if ok (io_status r2) then let! r := io s2 (IClose o) in Ret (fst r, tr2 ++ [(IClose o, snd r)], snd r) else Ret (s2, tr2, r2) in
      let! (s, tr) := let! r := (let! r := io s (IDelete o) in Ret (fst r, tr ++ [(IDelete o, snd r)], snd r)) in Ret (fst r) in
      let! (s, tr) := if negb (ok (io_status r)) then let! x := (let! r := io s (IRemove f) in Ret (fst r, tr ++ [(IRemove f, snd r)], snd r)) in Ret (fst x) else Ret (s, tr) in
      Ret (s, tr, io_status r)) = Ret (s', tr, st)).
  { intros s2 tr2 r2.
    assert (G2 : forall s3 (tr3 : trace) r3, exists s' tr st,
      (let! (s, tr) := let! r := (let! r := io s3 (IDelete o) in Ret (fst r, tr3 ++ [(IDelete o, snd r)], snd r)) in Ret (fst r) in
       let! (s, tr) := if negb (ok (io_status r3)) then let! x := (let! r := io s (IRemove f) in Ret (fst r, tr ++ [(IRemove f, snd r)], snd r)) in Ret (fst x) else Ret (s, tr) in
       Ret (s, tr, io_status r3)) = Ret (s', tr, st)).
    { intros s3 tr3 r3. destruct (T s3 (IDelete o)) as (s4 & r4 & E4). rewrite E4. cbn [bind fst snd].
      destruct (ok (io_status r3)); cbn [negb bind]; [eauto|].
      destruct (T s4 (IRemove f)) as (s5 & r5 & E5). rewrite E5. cbn [bind fst snd]. eauto. }
    destruct (ok (io_status r2)); cbn [bind]; [|apply G2].
    destruct (T s2 (IClose o)) as (s3 & r3 & E3). rewrite E3. cbn [bind fst snd]. apply G2. }
  destruct (ok (io_status r1) && sync); cbn [bind]; [|apply G].
  destruct (T s1 (ISync o)) as (s2 & r2 & E2). rewrite E2. cbn [bind fst snd]. apply G.
Qed.
Print Assumptions C53_write_returns.

(** C71, for every environment *)
Theorem C71_read_file_to_string :
  forall (S : Type) (io : S -> io_call -> outcome (S * io_res)) fuel s f s' tr st data,
    read_file S io fuel s f = Ret (s', tr, st, data) ->
    st = first_error tr /\ data = read_data tr /\
    (forall r o, nth_error tr 0 = Some (INewSequential f, r) -> io_ptr r = PObj o -> io_status r = SOk ->
       deleted_once tr o /\
       (* OK only at end of file: the last read, and only it, delivered nothing *)
       (st = SOk -> exists t x y, tr = t ++ [(IRead o 8192, x); (IDelete o, y)] /\ io_status x = SOk /\ io_data x = [] /\
                                  (forall c z, In (c, z) t -> forall n, c = IRead o n -> io_data z <> []))).
Proof.
  intros S io fuel s f s' tr st data. unfold read_file, call.
  destruct (io s (INewSequential f)) as [[s0 r0]| | |] eqn:E0; cbn [bind fst snd app]; try discriminate.
  destruct (ok (io_status r0)) eqn:O0; cbn [negb].
  - apply ok_SOk in O0. unfold deref. destruct (io_ptr r0) as [o| |] eqn:P0; cbn [bind]; try discriminate.
    destruct (read_loop S io fuel s0 [(INewSequential f, r0)] o []) as [[[[s1 tr1] st1] data1]| | |] eqn:El; cbn [bind]; try discriminate.
    unfold del, call. destruct (io s1 (IDelete o)) as [[s2 rd]| | |] eqn:Ed; cbn [bind fst snd]; try discriminate.
    intros Q. injection Q as <- <- <- <-.
    apply read_loop_trace in El as (t & r & -> & Ht & -> & Hr & ->). cbn [app].
    assert (Fe : forall t', first_error (t ++ t') = first_error t').
    { intros t'. clear - Ht. induction t as [|[c x] t IH]; [reflexivity|]. destruct (Ht c x (or_introl eq_refl)) as (-> & Sx & _).
      cbn [app first_error]. rewrite Sx. apply IH. intros c' x' Hc. apply Ht. right. exact Hc. }
    assert (Rd : forall t', read_data (t ++ t') = read_data t ++ read_data t').
    { intros t'. clear. induction t as [|[c x] t IH]; [reflexivity|]. cbn [app]. destruct c; cbn [read_data]; rewrite IH; auto. now rewrite app_assoc. }
    split; [|split].
    + cbn [first_error]. rewrite O0, <- app_assoc, Fe. cbn [app first_error]. now destruct (io_status r).
    + cbn [read_data]. rewrite <- app_assoc, Rd. cbn [app read_data]. destruct (io_status r) eqn:Sr; cbn [ok].
      * rewrite Hr by reflexivity. now rewrite !app_nil_r.
      * now rewrite !app_nil_r.
    + intros r' o' Hn Ho Hs. cbn [nth_error] in Hn. injection Hn as <-. assert (o' = o) by congruence. subst o'. split.
      * exists ((INewSequential f, r0) :: t ++ [(IRead o 8192, r)]), rd, []. split; [now rewrite <- app_assoc; cbn [app]; rewrite <- app_assoc|]. split; [|easy].
        intros c x [Q|Hc]; [injection Q as <- <-; discriminate|]. rewrite in_app_iff in Hc. destruct Hc as [Hc|[Q|[]]].
        -- destruct (Ht c x Hc) as (-> & _). discriminate.
        -- injection Q as <- <-. discriminate.
      * intros Sr. exists ((INewSequential f, r0) :: t), r, rd. split; [now rewrite <- app_assoc|]. split; [exact Sr|]. split; [auto|].
        intros c z [Q|Hc] n Hc'; [subst c; discriminate|]. now destruct (Ht c z Hc) as (_ & _ & Z).
  - destruct (io_ptr r0) as [o| |] eqn:P0; unfold del, call; cbn [bind].
    + destruct (io s0 (IDelete o)) as [[s1 rd]| | |] eqn:Ed; cbn [bind fst snd app]; try discriminate.
      intros Q. injection Q as <- <- <- <-. split; [|split; [reflexivity|]].
      * cbn [first_error]. now destruct (io_status r0).
      * intros r o' Hn Ho Hs. cbn [nth_error] in Hn. injection Hn as <-. rewrite Hs in O0. discriminate.
    + intros Q. injection Q as <- <- <- <-. split; [|split; [reflexivity|]].
      * cbn [first_error]. now destruct (io_status r0).
      * intros r o' Hn Ho Hs. cbn [nth_error] in Hn. injection Hn as <-. rewrite Hs in O0. discriminate.
    + discriminate.
Qed.
Print Assumptions C71_read_file_to_string.

(** An environment that returns an error without storing a pointer (env.h
    requires a null pointer then) makes ReadFileToString delete an
    uninitialised pointer. *)
Theorem C71_unset_pointer_refuted :
  forall fuel f, exists (io : unit -> io_call -> outcome (unit * io_res)),
    (forall s c, exists s' r, io s c = Ret (s', r)) /\ read_file unit io fuel tt f = UB.
Proof.
  intros fuel f. exists (fun _ _ => Ret (tt, mk_io (SErr IOError f []) PUnset [])). split; [eauto|reflexivity].
Qed.
Print Assumptions C71_unset_pointer_refuted.

(** ** Examples *)
Example c52_example : exists H e, runs alc_reuse alc_bump true H e /\ bound H fa = Some 0 /\ contents H 0 = big /\ legal H (NewWrite fa).
Proof.
  destruct (run_calls alc_reuse alc_bump true [] env_new [NewWrite fa; WAppend 0 big; Delete 0]) as [[H e]|] eqn:E; [|vm_compute in E; discriminate].
  exists H, e. split; [eapply run_calls_ok; [apply alc_reuse_ok|apply alc_bump_ok|apply reach_new|exact E]|].
  vm_compute in E. injection E as <- <-. repeat split; vm_compute; reflexivity.
Qed.
(** an environment whose Append fails *)
Example c53_example : exists s' tr st,
  do_write nat (fun n c => Ret (S n, match c with IAppend _ _ => mk_io (SErr IOError fa []) PUnset [] | _ => mk_io SOk (PObj 5) [] end)) 0 [1]%N fa true = Ret (s', tr, st)
  /\ map fst tr = [INewWritable fa; IAppend 5 [1%N]; IDelete 5; IRemove fa] /\ st = SErr IOError fa [].
Proof. do 3 eexists. split; [reflexivity|]. split; reflexivity. Qed.
(** an environment whose third read is empty *)
Example c71_example : exists s' tr,
  read_file nat (fun n c => Ret (S n, mk_io SOk (PObj 5) (if n <? 3 then [N.of_nat n] else []))) 10 0 fa = Ret (s', tr, SOk, [1;2]%N).
Proof. do 2 eexists. reflexivity. Qed.
