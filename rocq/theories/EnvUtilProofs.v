(** EnvUtilProofs.v *)
From Coq Require Import List Arith NArith ZArith Lia Bool.
From Verif Require Import Outcome Heap Status MemEnv MemEnvSpec MemEnvMem MemEnvMap MemEnvProofs EnvUtil EnvUtilSpec.
Import ListNotations.
Local Open Scope outcome_scope.

Section Gen.
  Variable S : Type.
  Variable io : S -> io_call -> outcome (S * io_res).

  (** The exact calls of DoWriteStringToFile. *)
  Lemma do_write_trace s d f sync s' tr st : do_write S io s d f sync = Ret (s', tr, st) ->
    (exists r, tr = [(INewWritable f, r)] /\ st = io_status r /\ st <> SOk) \/
    (exists o r0 r1 rs rc rd rr, io_status r0 = SOk /\ io_ptr r0 = PObj o /\
       let syncs := ok (io_status r1) && sync in
       let st2 := if syncs then io_status rs else io_status r1 in
       let st3 := if ok st2 then io_status rc else st2 in
       tr = [(INewWritable f, r0); (IAppend o d, r1)] ++ (if syncs then [(ISync o, rs)] else []) ++
            (if ok st2 then [(IClose o, rc)] else []) ++ [(IDelete o, rd)] ++ (if ok st3 then [] else [(IRemove f, rr)]) /\
       st = st3).
  Proof.
    unfold do_write, del, call. destruct (io s (INewWritable f)) as [[s0 r0]| | |] eqn:E0; cbn [bind fst snd app]; try discriminate.
    destruct (ok (io_status r0)) eqn:O0; cbn [negb]; [|intros Q; inversion Q; subst; left; exists r0; split; [reflexivity|]; split; [reflexivity|]; intros Z; rewrite Z in O0; discriminate].
    assert (K0 : io_status r0 = SOk) by (destruct (io_status r0); [reflexivity|discriminate]).
    unfold deref. destruct (io_ptr r0) as [o| |] eqn:P0; cbn [bind]; try discriminate.
    destruct (io s0 (IAppend o d)) as [[s1 r1]| | |] eqn:E1; cbn [bind fst snd app]; try discriminate.
    intros Q. right. exists o, r0, r1.
    Local Ltac fin := match goal with Q : Ret _ = Ret _ |- _ => inversion Q; subst end; split; [assumption|]; split; [assumption|]; cbv zeta;
      repeat (match goal with E : ok _ = _ |- _ => rewrite E | E : _ && _ = _ |- _ => rewrite E end; cbv iota); split; reflexivity.
    destruct (ok (io_status r1) && sync) eqn:O1.
    - destruct (io s1 (ISync o)) as [[s2 rs]| | |] eqn:E2; cbn [bind fst snd app] in Q; try discriminate.
      exists rs. destruct (ok (io_status rs)) eqn:O2.
      + destruct (io s2 (IClose o)) as [[s3 rc]| | |] eqn:E3; cbn [bind fst snd app] in Q; try discriminate.
        exists rc. destruct (io s3 (IDelete o)) as [[s4 rd]| | |] eqn:E4; cbn [bind fst snd app] in Q; try discriminate.
        exists rd. destruct (ok (io_status rc)) eqn:O3; cbn [negb bind] in Q.
        * exists rc. fin.
        * destruct (io s4 (IRemove f)) as [[s5 rr]| | |] eqn:E5; cbn [bind fst snd app] in Q; try discriminate.
          exists rr. fin.
      + cbn [bind] in Q. exists rs. destruct (io s2 (IDelete o)) as [[s4 rd]| | |] eqn:E4; cbn [bind fst snd app] in Q; try discriminate.
        exists rd. rewrite O2 in Q. cbn [negb bind] in Q. destruct (io s4 (IRemove f)) as [[s5 rr]| | |] eqn:E5; cbn [bind fst snd app] in Q; try discriminate.
        exists rr. fin.
    - cbn [bind] in Q. exists r1. destruct (ok (io_status r1)) eqn:O2.
      + destruct (io s1 (IClose o)) as [[s3 rc]| | |] eqn:E3; cbn [bind fst snd app] in Q; try discriminate.
        exists rc. destruct (io s3 (IDelete o)) as [[s4 rd]| | |] eqn:E4; cbn [bind fst snd app] in Q; try discriminate.
        exists rd. destruct (ok (io_status rc)) eqn:O3; cbn [negb bind] in Q.
        * exists rc. fin.
        * destruct (io s4 (IRemove f)) as [[s5 rr]| | |] eqn:E5; cbn [bind fst snd app] in Q; try discriminate.
          exists rr. fin.
      + cbn [bind] in Q. exists r1. destruct (io s1 (IDelete o)) as [[s4 rd]| | |] eqn:E4; cbn [bind fst snd app] in Q; try discriminate.
        exists rd. rewrite O2 in Q. cbn [negb bind] in Q. destruct (io s4 (IRemove f)) as [[s5 rr]| | |] eqn:E5; cbn [bind fst snd app] in Q; try discriminate.
        exists rr. fin.
  Qed.

  Lemma ok_SOk s : ok s = true <-> s = SOk.
  Proof. destruct s; cbn; split; congruence. Qed.

  (** Reading *)
  Lemma read_loop_trace : forall fuel s tr o data s' tr' st data', read_loop S io fuel s tr o data = Ret (s', tr', st, data') ->
    exists t r, tr' = tr ++ t ++ [(IRead o 8192, r)] /\
      (forall c x, In (c, x) t -> c = IRead o 8192 /\ io_status x = SOk /\ io_data x <> []) /\
      st = io_status r /\ (st = SOk -> io_data r = []) /\ data' = data ++ read_data t.
  Proof.
    induction fuel as [|fuel IH]; intros s tr o data s' tr' st data'; cbn [read_loop]; [discriminate|]. unfold call.
    destruct (io s (IRead o 8192)) as [[s1 r]| | |] eqn:E; cbn [bind fst snd]; try discriminate.
    destruct (ok (io_status r)) eqn:O; cbn [negb].
    - apply ok_SOk in O. destruct (io_data r) as [|b l] eqn:D.
      + intros Q. inversion Q; subst. exists [], r. split; [reflexivity|]. split; [easy|]. split; [reflexivity|]. split; [auto|]. now rewrite !app_nil_r.
      + intros Q. apply IH in Q as (t & r' & E1 & E2 & E3 & E4 & E5). exists ((IRead o 8192, r) :: t), r'.
        split; [rewrite E1; now rewrite <- app_assoc|]. split.
        { intros c x [Q|Q]; [|auto]. inversion Q; subst. split; [reflexivity|]. split; [exact O|]. now rewrite D. }
        split; [exact E3|]. split; [exact E4|]. rewrite E5. cbn [read_data]. rewrite O. cbn [ok]. now rewrite D, <- app_assoc.
    - intros Q. inversion Q; subst. exists [], r. split; [reflexivity|]. split; [easy|]. split; [reflexivity|].
      split; [intros Z; rewrite Z in O; discriminate|]. cbn [read_data]. now rewrite app_nil_r.
  Qed.
End Gen.

(** ** On the in-memory environment *)
Section Mem.
  Variables (alc alb : allocator) (dbg : bool).
  Hypothesis Halc : allocator_ok alc.
  Hypothesis Halb : allocator_ok alb.
  Notation reach := (reach alc alb dbg).
  Notation mio := (mem_io alc alb dbg).

  Lemma N2Nat_lt a b : (a < b)%N -> N.to_nat a < N.to_nat b.
  Proof. lia. Qed.
  (** [H'] is [H] with calls added that leave names and contents alone. *)
  Definition quiet (H H' : history) : Prop :=
    (forall g, bound H' g = bound H g) /\ (forall i, contents H' i = contents H i).

  Lemma live_later ev H h k i : live H h k i -> deleted (ev :: H) h = deleted H h -> live (ev :: H) h k i.
  Proof.
    intros (L1 & L2) E. split; [|congruence]. destruct (opened_lt _ _ _ _ L1). rewrite opened_old by lia. exact L1.
  Qed.

  Lemma mem_read_loop i h : forall fuel H e tr data, reach H e -> live H h KSeq i -> (pos H h <= fsize H i)%N ->
    length (contents H i) - N.to_nat (pos H h) < fuel ->
    exists H' e' tr', read_loop (history * env) mio fuel (H, e) tr h data = Ret ((H', e'), tr', SOk, data ++ skipn (N.to_nat (pos H h)) (contents H i)) /\
      reach H' e' /\ quiet H H' /\ (forall g, deleted H' g = deleted H g) /\ (exists t, H' = t ++ H) /\
      (forall g, length H <= g -> opened H' g = None).
  Proof.
    induction fuel as [|fuel IH]; intros H e tr data R L Hp Hf; [lia|]. cbn [read_loop]. unfold call.
    destruct (reach_step alc alb dbg Halc Halb H e (SRead h 8192) R) as (e1 & r & E & X & R1).
    { cbn [legal]. split; [reflexivity|eauto]. }
    destruct X as (i' & L' & X). assert (i' = i) by (destruct L as (L1 & _), L' as (L2 & _); congruence). subst i'.
    pose proof Hp as Hp'. apply N.ltb_ge in Hp'. rewrite Hp' in X. subst r.
    remember (part (contents H i) (pos H h) 8192) as d eqn:Hd. set (ev := mk_event (SRead h 8192) (RData SOk d)) in *.
    unfold mem_io at 1. rewrite E. cbn [bind fst snd ev_res io_status ok negb io_data].
    change (ev_res ev) with (RData SOk d). cbv iota. cbn [io_status ok negb io_data].
    assert (Q : quiet H (ev :: H)) by (split; reflexivity).
    assert (Dl : forall g, deleted (ev :: H) g = deleted H g) by reflexivity.
    assert (Op : forall g, length H <= g -> opened (ev :: H) g = None).
    { intros g Hg. cbn [opened]. destruct (g =? length H) eqn:Eg; [reflexivity|].
      destruct (opened H g) as [[k j]|] eqn:Eo; [|reflexivity]. apply opened_lt in Eo. lia. }
    destruct d as [|b l].
    - exists (ev :: H), e1, (tr ++ [(IRead h 8192, mk_io SOk PUnset [])]). split; [|split; [exact R1|split; [exact Q|split; [exact Dl|split; [exists [ev]; reflexivity|exact Op]]]]].
      do 2 f_equal. f_equal. apply (f_equal (@length N)) in Hd. unfold part in Hd. rewrite firstn_length in Hd. cbn [length] in Hd.
      assert (length (skipn (N.to_nat (pos H h)) (contents H i)) = 0).
      { assert (P : 0 < N.to_nat 8192) by (apply (N2Nat_lt 0); reflexivity). clear - Hd P. revert Hd P.
        generalize (N.to_nat 8192), (length (skipn (N.to_nat (pos H h)) (contents H i))). intros. lia. }
      now destruct (skipn (N.to_nat (pos H h)) (contents H i)).
    - assert (Pn : pos (ev :: H) h = (pos H h + N.of_nat (length (b :: l)))%N).
      { unfold ev. cbn [pos ev_call ev_res]. now rewrite Nat.eqb_refl. }
      assert (Sz : (pos H h + N.of_nat (length (b :: l)) <= fsize H i)%N).
      { rewrite Hd. unfold fsize in *. apply part_length. exact Hp. }
      destruct (IH (ev :: H) e1 (tr ++ [(IRead h 8192, mk_io SOk PUnset (b :: l))]) (data ++ b :: l) R1) as (H' & e' & tr' & E' & R' & Q' & D' & (t & T') & O').
      + apply live_later; [exact L|reflexivity].
      + rewrite Pn. exact Sz.
      + rewrite Pn. change (contents (ev :: H) i) with (contents H i). unfold fsize in Sz. cbn [length] in *. clear - Sz Hf. lia.
      + exists H', e', tr'. split; [|split; [exact R'|split; [|split; [|split]]]].
        * refine (eq_trans E' _). do 2 f_equal. rewrite Pn. change (contents (ev :: H) i) with (contents H i).
          rewrite <- app_assoc. f_equal. rewrite Hd. 
          rewrite N2Nat.inj_add, Nat2N.id. rewrite <- skipn_add. unfold part. rewrite firstn_length.
          generalize (skipn (N.to_nat (pos H h)) (contents H i)). intros c.
          destruct (le_lt_dec (length c) (N.to_nat 8192)) as [Q1|Q1].
          -- rewrite Nat.min_r by exact Q1. rewrite skipn_all, app_nil_r. now apply firstn_all2.
          -- rewrite Nat.min_l by lia. apply firstn_skipn.
        * destruct Q' as (Q1 & Q2). split; intros; [rewrite Q1|rewrite Q2]; reflexivity.
        * intros g. rewrite D'. reflexivity.
        * exists (t ++ [ev]). rewrite T'. now rewrite <- app_assoc.
        * intros g Hg. destruct (Nat.eq_dec g (length H)) as [->|Hn].
          -- subst H'.
             assert (G : forall t : history, opened (t ++ ev :: H) (length H) = opened (ev :: H) (length H)).
             { clear. induction t as [|x t IH]; [reflexivity|]. cbn [app]. rewrite opened_old; [exact IH|]. rewrite app_length. cbn [length]. lia. }
             rewrite G. apply Op. auto.
          -- apply O'. cbn [length]. lia.
  Qed.

  Lemma opened_app t H h : h < length H -> opened (t ++ H) h = opened H h.
  Proof.
    intros Hh. induction t as [|x t IH]; [reflexivity|]. cbn [app]. rewrite opened_old; [exact IH|]. rewrite app_length. lia.
  Qed.

  Lemma mem_read_file fuel H e f i : reach H e -> bound H f = Some i -> legal H (NewSeq f) -> length (contents H i) < fuel ->
    exists H' e' tr, read_file (history * env) mio fuel (H, e) f = Ret ((H', e'), tr, SOk, contents H i) /\
      reach H' e' /\ quiet H H' /\ (forall h, live_b H' h = live_b H h).
  Proof.
    intros R B L Hf. unfold read_file, call.
    destruct (reach_step alc alb dbg Halc Halb H e (NewSeq f) R L) as (e1 & r & E & X & R1).
    cbn [Expect] in X. rewrite B in X. subst r. unfold mem_io at 1. rewrite E. cbn [bind fst snd app ev_res io_status ok negb io_ptr deref].
    set (ev := mk_event (NewSeq f) (RStat SOk)) in *.
    destruct (reach_inv alc alb dbg Halc Halb H e R) as (I & V).
    destruct (hi_fresh _ _ _ _ _ V (length H) (le_n _)) as (P0 & D0).
    assert (Lv : live (ev :: H) (length H) KSeq i).
    { split; [|exact D0]. rewrite (opened_some _ _ KSeq f) by reflexivity. change (bound (ev :: H) f) with (bound H f). now rewrite B. }
    destruct (mem_read_loop i (length H) fuel (ev :: H) e1 [(INewSequential f, mk_io SOk (PObj (length H)) [])] [] R1 Lv) as (H' & e' & tr' & E' & R' & Q' & D' & (t & T') & O').
    { change (pos (ev :: H) (length H)) with (pos H (length H)). rewrite P0. lia. }
    { change (pos (ev :: H) (length H)) with (pos H (length H)). change (contents (ev :: H) i) with (contents H i). lia. }
    change (pos (ev :: H) (length H)) with (pos H (length H)) in E'. rewrite P0 in E'.
    change (contents (ev :: H) i) with (contents H i) in E'. cbn [N.to_nat skipn app] in E'.
    match type of E' with ?l = _ => match goal with |- context [read_loop ?a ?b ?c ?d ?e ?f ?g] => change (read_loop a b c d e f g) with l end end.
    rewrite E'. cbn [bind]. unfold del, call.
    assert (Lv' : live H' (length H) KSeq i).
    { destruct Lv as (L1 & L2). split; [|rewrite D'; exact L2]. rewrite T', opened_app by (cbn [length]; lia). exact L1. }
    destruct (reach_step alc alb dbg Halc Halb H' e' (Delete (length H)) R') as (e2 & r2 & E2 & X2 & R2).
    { cbn [legal]. eauto. }
    cbn [Expect] in X2. subst r2. unfold mem_io at 1. rewrite E2. cbn [bind fst snd].
    eexists. exists e2. eexists. split; [reflexivity|]. split; [exact R2|]. destruct Q' as (Q1 & Q2). split; [|].
    - split; intros; cbn [bound contents ev_call]; [rewrite Q1|rewrite Q2]; reflexivity.
    - intros h. unfold live_b. cbn [deleted ev_call]. rewrite D'. change (deleted (ev :: H) h) with (deleted H h).
      assert (Lh : length H < length H') by (rewrite T', app_length; cbn [length]; lia).
      cbn [opened ev_call opens]. destruct (h =? length H') eqn:E3.
      { apply Nat.eqb_eq in E3. subst h. destruct (opened H (length H')) as [[k j]|] eqn:Eo; [apply opened_lt in Eo; lia|reflexivity]. }
      destruct (lt_eq_lt_dec h (length H)) as [[Hh|Hh]|Hh].
      + rewrite T', opened_app by (cbn [length]; lia). rewrite opened_old by lia.
        assert (E4 : length H =? h = false) by (apply Nat.eqb_neq; lia). now rewrite E4.
      + subst h. rewrite Nat.eqb_refl. cbn [orb negb]. destruct (opened H (length H)) as [[k j]|] eqn:Eo; [apply opened_lt in Eo; lia|].
        destruct (opened H' (length H)) as [[k j]|]; reflexivity.
      + rewrite O' by (cbn [length]; lia). destruct (opened H h) as [[k j]|] eqn:Eo; [apply opened_lt in Eo; lia|reflexivity].
  Qed.

  Lemma mem_read_missing fuel H e f : reach H e -> bound H f = None -> legal H (NewSeq f) ->
    exists H' tr, read_file (history * env) mio fuel (H, e) f = Ret ((H', e), tr, SErr IOError f msg_not_found, []) /\
      reach H' e /\ quiet H H'.
  Proof.
    intros R B L. destruct (reach_inv alc alb dbg Halc Halb H e R) as (I & V).
    pose proof (bound_map _ _ H e I f V) as Q. rewrite B in Q.
    assert (E : exec alc alb dbg H e (NewSeq f) = Ret (e, mk_event (NewSeq f) (RStat (SErr IOError f msg_not_found)))).
    { unfold exec, dispatch, new_sequential. destruct (map_find f (e_map e)); [discriminate|reflexivity]. }
    unfold read_file, call, mem_io. rewrite E. cbn [bind fst snd ev_res io_status ok negb io_ptr del].
    eexists. eexists. split; [reflexivity|]. split; [econstructor; eauto|]. split; reflexivity.
  Qed.

  Lemma mem_do_write H e d f sync : reach H e -> legal H (NewWrite f) -> (N.of_nat (length d) < 2 ^ 64)%N ->
    exists H' e' tr i, do_write (history * env) mio (H, e) d f sync = Ret ((H', e'), tr, SOk) /\ reach H' e' /\
      bound H' f = Some i /\ contents H' i = d /\
      (forall g, g <> f -> bound H' g = bound H g) /\ (forall j, j <> i -> contents H' j = contents H j) /\
      (forall g, g <> f -> bound H g <> Some i) /\
      (forall h, live_b H' h = live_b H h).
  Proof.
    intros R L Hd. destruct (reach_inv alc alb dbg Halc Halb H e R) as (I & V).
    destruct (hi_fresh _ _ _ _ _ V (length H) (le_n _)) as (P0 & D0).
    destruct (reach_step alc alb dbg Halc Halb H e (NewWrite f) R L) as (e1 & r & E & X & R1). cbn [Expect] in X. subst r.
    set (ev := mk_event (NewWrite f) (RStat SOk)) in *. set (o := length H) in *.
    assert (G : exists i, bound (ev :: H) f = Some i /\ contents (ev :: H) i = [] /\ (forall j, j <> i -> contents (ev :: H) j = contents H j) /\
                forall g, g <> f -> bound H g <> Some i).
    { destruct (bound H f) as [i|] eqn:Bf.
      - exists i. unfold ev. cbn [bound contents ev_call]. rewrite str_eqb_refl, Bf, Nat.eqb_refl. split; [reflexivity|]. split; [reflexivity|]. split.
        + intros j Hj. apply not_eq_sym, Nat.eqb_neq in Hj. now rewrite Hj.
        + intros g Hg Q. apply Hg. rewrite (bound_map _ _ H e I g V) in Q. rewrite (bound_map _ _ H e I f V) in Bf.
          destruct (map_find g (e_map e)) as [a|] eqn:Eg; [|discriminate]. destruct (map_find f (e_map e)) as [b|] eqn:Ef; [|discriminate].
          cbn [option_map] in *. assert (a = b).
          { apply (co_inj _ _ _ _ _ _ (hi_core _ _ _ _ _ V)); [exact (Core_find _ _ _ _ _ _ _ _ (hi_core _ _ _ _ _ V) Eg)|exact (Core_find _ _ _ _ _ _ _ _ (hi_core _ _ _ _ _ V) Ef)|congruence]. }
          subst b. pose proof (co_vals _ _ _ _ _ _ (hi_core _ _ _ _ _ V)) as ND. pose proof (co_sorted _ _ _ _ _ _ (hi_core _ _ _ _ _ V)) as So.
          apply find_some_in in Eg; [|exact So]. apply find_some_in in Ef; [|exact So]. clear - ND Eg Ef.
          induction (e_map e) as [|[k v] m IH]; [easy|]. cbn [map snd] in ND. apply NoDup_cons_iff in ND as [N1 N2].
          destruct Eg as [Eg|Eg], Ef as [Ef|Ef].
          * congruence.
          * exfalso. apply N1. injection Eg as _ ->. apply in_map_iff. exists (f, a). auto.
          * exfalso. apply N1. injection Ef as _ ->. apply in_map_iff. exists (g, a). auto.
          * auto.
      - exists o. unfold ev. cbn [bound contents ev_call]. rewrite str_eqb_refl, Bf. split; [reflexivity|]. split; [now apply contents_new|].
        split; [reflexivity|]. intros g Hg Q. apply bound_lt in Q. unfold o in Q. lia. }
    destruct G as (i & B1 & C1 & C2 & Bi).
    assert (Lv : live (ev :: H) o KWrite i).
    { split; [|exact D0]. unfold o. rewrite (opened_some _ _ KWrite f) by reflexivity. now rewrite B1. }
    destruct (reach_step alc alb dbg Halc Halb (ev :: H) e1 (WAppend o d) R1) as (e2 & r2 & E2 & X2 & R2).
    { cbn [legal]. exists i. split; [exact Lv|]. unfold fsize. rewrite C1. cbn [length]. lia. }
    cbn [Expect] in X2. subst r2. set (ev2 := mk_event (WAppend o d) (RStat SOk)) in *.
    assert (Lv2 : live (ev2 :: ev :: H) o KWrite i) by (apply live_later; [exact Lv|reflexivity]).
    assert (C3 : forall j, contents (ev2 :: ev :: H) j = if j =? i then d else contents (ev :: H) j).
    { intros j. cbn [contents]. unfold ev2 at 1. cbn [ev_call]. destruct Lv as (L1 & _). rewrite L1. rewrite Nat.eqb_sym.
      destruct (j =? i) eqn:Ej; [|reflexivity]. apply Nat.eqb_eq in Ej. subst j. unfold ev. cbn [contents ev_call].
      change (contents (ev :: H) i ++ d = d). now rewrite C1. }
    (* the optional Sync *)
    assert (Sy : exists H3 e3 tr3, (if ok SOk && sync then call (history * env) mio (ev2 :: ev :: H, e2)
                    [(INewWritable f, mk_io SOk (PObj o) []); (IAppend o d, mk_io SOk PUnset [])] (ISync o)
                  else Ret (ev2 :: ev :: H, e2, [(INewWritable f, mk_io SOk (PObj o) []); (IAppend o d, mk_io SOk PUnset [])], mk_io SOk PUnset []))
                 = Ret (H3, e3, tr3, mk_io SOk PUnset []) /\ reach H3 e3 /\ live H3 o KWrite i /\ quiet (ev2 :: ev :: H) H3 /\
                 (forall h, deleted H3 h = deleted H h) /\ (exists t, H3 = t ++ ev2 :: ev :: H) /\ (forall h, o < h -> opened H3 h = None)).
    { assert (Op2 : forall h, o < h -> opened (ev2 :: ev :: H) h = None).
      { intros h Hh. cbn [opened]. destruct (h =? length (ev :: H)) eqn:Q; [reflexivity|].
        assert (Q2 : h =? length H = false) by (apply Nat.eqb_neq; unfold o in Hh; lia). rewrite Q2.
        destruct (opened H h) as [[k j]|] eqn:Eo; [apply opened_lt in Eo; unfold o in Hh; lia|reflexivity]. }
      destruct sync; cbn [ok andb].
      - destruct (reach_step alc alb dbg Halc Halb (ev2 :: ev :: H) e2 (WSync o) R2) as (e3 & r3 & E3 & X3 & R3).
        { cbn [legal]. eauto. }
        cbn [Expect] in X3. subst r3. unfold call, mem_io. rewrite E3. cbn [bind fst snd ev_res].
        eexists. exists e3. eexists. split; [reflexivity|]. split; [exact R3|]. split; [apply live_later; [exact Lv2|reflexivity]|].
        split; [split; reflexivity|]. split; [reflexivity|]. split; [eexists [_]; reflexivity|].
        intros h Hh. cbn [opened ev_call opens]. destruct (h =? length (ev2 :: ev :: H)); [reflexivity|]. exact (Op2 h Hh).
      - eexists. exists e2. eexists. split; [reflexivity|]. split; [exact R2|]. split; [exact Lv2|]. split; [split; reflexivity|].
        split; [reflexivity|]. split; [exists []; reflexivity|]. exact Op2. }
    destruct Sy as (H3 & e3 & tr3 & E3 & R3 & L3 & (Q1 & Q2) & D3 & (t3 & T3) & O3).
    destruct (reach_step alc alb dbg Halc Halb H3 e3 (WClose o) R3) as (e4 & r4 & E4 & X4 & R4).
    { cbn [legal]. eauto. }
    cbn [Expect] in X4. subst r4. set (ev4 := mk_event (WClose o) (RStat SOk)) in *.
    destruct (reach_step alc alb dbg Halc Halb (ev4 :: H3) e4 (Delete o) R4) as (e5 & r5 & E5 & X5 & R5).
    { cbn [legal]. exists KWrite, i. apply live_later; [exact L3|reflexivity]. }
    cbn [Expect] in X5. subst r5. set (ev5 := mk_event (Delete o) (RStat SOk)) in *.
    exists (ev5 :: ev4 :: H3), e5. eexists. exists i. split; [|split; [exact R5|]].
    { unfold do_write. unfold call at 1, mem_io at 1. rewrite E. unfold ev. cbn [bind fst snd app ev_res io_status ok negb io_ptr deref]. fold ev. fold o. unfold call at 1, mem_io at 1. rewrite E2. unfold ev2. cbn [bind fst snd app ev_res io_status]. fold ev2.
      match goal with |- context [if ok SOk && sync then ?a else ?b] => change (if ok SOk && sync then a else b) with (if ok SOk && sync then call (history * env) mio (ev2 :: ev :: H, e2)
                    [(INewWritable f, mk_io SOk (PObj o) []); (IAppend o d, mk_io SOk PUnset [])] (ISync o)
                  else Ret (ev2 :: ev :: H, e2, [(INewWritable f, mk_io SOk (PObj o) []); (IAppend o d, mk_io SOk PUnset [])], mk_io SOk PUnset [])) end.
      rewrite E3. cbn [bind io_status ok]. unfold call at 1, mem_io at 1. rewrite E4. unfold ev4. cbn [bind fst snd ev_res io_status ok]. fold ev4.
      unfold del, call, mem_io. rewrite E5. cbn [bind fst snd io_status ok negb]. reflexivity. }
    assert (Bn : forall g, bound (ev5 :: ev4 :: H3) g = bound (ev :: H) g) by (intros g; change (bound (ev5 :: ev4 :: H3) g) with (bound H3 g); rewrite Q1; reflexivity).
    assert (Cn : forall j, contents (ev5 :: ev4 :: H3) j = if j =? i then d else contents (ev :: H) j)
      by (intros j; change (contents (ev5 :: ev4 :: H3) j) with (contents H3 j); rewrite Q2; apply C3).
    split; [rewrite Bn; exact B1|]. split; [rewrite Cn, Nat.eqb_refl; reflexivity|].
    split; [intros g Hg; rewrite Bn; unfold ev; cbn [bound ev_call]; apply str_eqb_neq in Hg; now rewrite Hg|].
    split; [intros j Hj; rewrite Cn; rewrite <- (C2 j Hj); apply Nat.eqb_neq in Hj; now rewrite Hj|].
    split; [exact Bi|].
    intros h. unfold live_b. unfold ev5, ev4. cbn [deleted ev_call]. rewrite D3. cbn [orb].
    assert (Lh : o < length H3) by (rewrite T3, app_length; cbn [length]; unfold o; lia).
    cbn [opened ev_call opens]. cbn [length].
    assert (Z : forall k, o < k -> opened H k = None).
    { intros k Hk. destruct (opened H k) as [[k0 j]|] eqn:Eo; [apply opened_lt in Eo; unfold o in Hk; lia|reflexivity]. }
    destruct (h =? Datatypes.S (length H3)) eqn:E6; [apply Nat.eqb_eq in E6; rewrite Z by lia; reflexivity|].
    destruct (h =? length H3) eqn:E7; [apply Nat.eqb_eq in E7; rewrite Z by lia; reflexivity|].
    destruct (lt_eq_lt_dec h o) as [[Hh|Hh]|Hh].
    - rewrite T3, opened_app by (cbn [length]; unfold o in Hh; lia). rewrite opened_old by (cbn [length]; unfold o in Hh; lia). rewrite opened_old by (unfold o in Hh; lia).
      assert (E8 : o =? h = false) by (apply Nat.eqb_neq; lia). now rewrite E8.
    - subst h. rewrite Nat.eqb_refl. cbn [orb negb]. destruct (opened H o) as [[k j]|] eqn:Eo; [apply opened_lt in Eo; unfold o in Eo; lia|].
      destruct (opened H3 o) as [[k j]|]; reflexivity.
    - rewrite O3 by exact Hh. rewrite Z by exact Hh. reflexivity.
  Qed.
End Mem.
