(** EnvUtilOomProps.v -- C117: the helpers of env.cc and exceptions. *)
From Coq Require Import List Arith NArith Lia Bool.
From Verif Require Import Outcome Status MemEnv EnvUtil EnvUtilSpec EnvUtilOom.
Import ListNotations.
Local Open Scope outcome_scope.

Lemma call_lift {S} (io : S -> io_call -> outcome (S * io_res)) s tr c :
  call_x S (lift io) s (lift_trace tr) c = (let! (s', tr', r) := call S io s tr c in Ret (s', lift_trace tr', XAns r)).
Proof.
  unfold call_x, call, lift. destruct (io s c) as [[s' r]| | |]; cbn [bind fst snd]; try reflexivity. unfold lift_trace. now rewrite map_app.
Qed.

(** ** C117 *)
(** Where nothing throws, the calls are those of C53 and C71. *)
Theorem C117_without_exception_no_difference :
  forall S (io : S -> io_call -> outcome (S * io_res)) s,
    (forall data f sync, do_write_x S (lift io) s data f sync = (let! (s', tr, st) := do_write S io s data f sync in Ret (s', lift_trace tr, Done st))) /\
    (forall fuel f, read_file_x S (lift io) false (fun _ => false) fuel s f = (let! (s', tr, st, d) := read_file S io fuel s f in Ret (s', lift_trace tr, Done st, d))).
Proof.
  intros S io s. change (@nil (io_call * xio)) with (lift_trace []). split.
  - intros data f sync. unfold do_write_x, do_write, del. change (@nil (io_call * xio)) with (lift_trace []). rewrite call_lift.
    destruct (call S io s [] (INewWritable f)) as [[[s1 tr1] r1]| | |]; cbn [bind]; try reflexivity.
    destruct (ok (io_status r1)); cbn [negb bind]; [|reflexivity]. destruct (deref (io_ptr r1)) as [o| | |]; cbn [bind]; try reflexivity. rewrite call_lift.
    destruct (call S io s1 tr1 (IAppend o data)) as [[[s2 tr2] r2]| | |]; cbn [bind]; try reflexivity.
    assert (G : forall (m : outcome (S * trace * io_res)) (k : S -> xtrace -> io_res -> outcome (S * xtrace * xend status)) k', (forall s tr r, k s (lift_trace tr) r = (let! (s', tr', st) := k' s tr r in Ret (s', lift_trace tr', Done st))) ->
      (let! (s, tr, r) := (let! (s', tr', r) := m in Ret (s', lift_trace tr', XAns r)) in match r with XThrow => Ret (s, tr, Threw) | XAns r => k s tr r end) =
      (let! (s', tr', st) := (let! (s, tr, r) := m in k' s tr r) in Ret (s', lift_trace tr', Done st))).
    { intros m k k' H. destruct m as [[[s3 tr3] r3]| | |]; cbn [bind]; auto. }
    destruct (ok (io_status r2)) eqn:O2, sync; cbn [andb bind]; rewrite ?O2; try rewrite !call_lift.
    + apply G. intros s3 tr3 r3. destruct (ok (io_status r3)) eqn:O3; rewrite ?call_lift; cbn [bind].
      * apply G. intros s4 tr4 r4. rewrite call_lift. destruct (call S io s4 tr4 (IDelete o)) as [[[s5 tr5] r5]| | |]; cbn [bind fst]; try reflexivity.
        destruct (ok (io_status r4)); cbn [negb bind]; [reflexivity|]. rewrite call_lift. destruct (call S io s5 tr5 (IRemove f)) as [[[s6 tr6] r6]| | |]; reflexivity.
      * rewrite call_lift. destruct (call S io s3 tr3 (IDelete o)) as [[[s5 tr5] r5]| | |]; cbn [bind fst]; try reflexivity.
        rewrite O3. cbn [negb bind]. rewrite call_lift. destruct (call S io s5 tr5 (IRemove f)) as [[[s6 tr6] r6]| | |]; reflexivity.
    + apply G. intros s4 tr4 r4. rewrite call_lift. destruct (call S io s4 tr4 (IDelete o)) as [[[s5 tr5] r5]| | |]; cbn [bind fst]; try reflexivity.
      destruct (ok (io_status r4)); cbn [negb bind]; [reflexivity|]. rewrite call_lift. destruct (call S io s5 tr5 (IRemove f)) as [[[s6 tr6] r6]| | |]; reflexivity.
    + repeat first [rewrite O2 | rewrite call_lift | progress (cbn [negb bind fst])]. destruct (call S io s2 tr2 (IDelete o)) as [[[s5 tr5] r5]| | |]; repeat first [rewrite O2 | rewrite call_lift | progress (cbn [negb bind fst])]; try reflexivity.
      destruct (call S io s5 tr5 (IRemove f)) as [[[s6 tr6] r6]| | |]; reflexivity.
    + repeat first [rewrite O2 | rewrite call_lift | progress (cbn [negb bind fst])]. destruct (call S io s2 tr2 (IDelete o)) as [[[s5 tr5] r5]| | |]; repeat first [rewrite O2 | rewrite call_lift | progress (cbn [negb bind fst])]; try reflexivity.
      destruct (call S io s5 tr5 (IRemove f)) as [[[s6 tr6] r6]| | |]; reflexivity.
  - intros fuel f. unfold read_file_x, read_file, del. change (@nil (io_call * xio)) with (lift_trace []). rewrite call_lift.
    destruct (call S io s [] (INewSequential f)) as [[[s1 tr1] r1]| | |]; cbn [bind]; try reflexivity.
    destruct (ok (io_status r1)); cbn [negb].
    + destruct (deref (io_ptr r1)) as [o| | |]; cbn [bind]; try reflexivity.
      assert (L : forall fuel k s tr d, read_loop_x S (lift io) (fun _ => false) fuel k s (lift_trace tr) o d = (let! (s', tr', st, d') := read_loop S io fuel s tr o d in Ret (s', lift_trace tr', Done st, d'))).
      { clear. induction fuel as [|fuel IH]; intros k s tr d; [reflexivity|]. cbn [read_loop_x read_loop]. rewrite call_lift. destruct (call S io s tr (IRead o 8192)) as [[[s1 tr1] r1]| | |]; cbn [bind]; try reflexivity.
        destruct (ok (io_status r1)); cbn [negb]; [|reflexivity]. destruct (io_data r1); [reflexivity|apply IH]. }
      rewrite L. destruct (read_loop S io fuel s1 tr1 o []) as [[[[s2 tr2] st2] d2]| | |]; cbn [bind]; try reflexivity. rewrite call_lift. destruct (call S io s2 tr2 (IDelete o)) as [[[s5 tr5] r5]| | |]; reflexivity.
    + destruct (io_ptr r1) as [o| |]; cbn [bind]; try reflexivity. rewrite call_lift. destruct (call S io s1 tr1 (IDelete o)) as [[[s5 tr5] r5]| | |]; reflexivity.
Qed.
Print Assumptions C117_without_exception_no_difference.

Definition answered (tr : xtrace) : Prop := Forall (fun e => snd e <> XThrow) tr.
(** [o] was deleted, as the last call on it, and no destructor threw. *)
Definition deleted_x (tr : xtrace) (o : nat) : Prop :=
  exists t1 r t2, tr = t1 ++ (IDelete o, XAns r) :: t2 /\ (forall c x, In (c, x) t1 -> c <> IDelete o) /\ (forall c x, In (c, x) t2 -> ~ on_obj o c).

(** WriteStringToFile left by an exception: it came out of the last call made on
    the environment.  From NewWritableFile: nothing else was called.  From
    RemoveFile: the object has been deleted.  From Append, Sync or Close: the object
    is never deleted and the file not removed. *)
Theorem C117_write_that_throws :
  forall S (io : S -> io_call -> outcome (S * xio)) s data f sync s' tr, do_write_x S io s data f sync = Ret (s', tr, Threw) ->
    exists t c, tr = t ++ [(c, XThrow)] /\ answered t /\
      ((c = INewWritable f /\ t = []) \/
       (exists o r t', t = (INewWritable f, XAns r) :: t' /\ io_status r = SOk /\ io_ptr r = PObj o /\
         ((c = IRemove f /\ deleted_x t o) \/
          ((c = IAppend o data \/ (c = ISync o /\ sync = true) \/ c = IClose o) /\ (forall e, In e tr -> fst e <> IDelete o /\ forall g, fst e <> IRemove g))))).
Proof.
  intros S io s data f sync s' tr. unfold do_write_x, call_x.
  destruct (io s (INewWritable f)) as [[s1 [r1|]]| | |] eqn:E1; cbn [bind fst snd app]; try discriminate.
  2:{ intros E. injection E as <- <-. exists [], (INewWritable f). split; [reflexivity|]. split; [constructor|]. auto. }
  destruct (io_status r1) eqn:S1; cbn [ok negb]; [|discriminate]. destruct (io_ptr r1) as [o| |] eqn:P1; cbn [deref bind]; try discriminate.
  destruct (io s1 (IAppend o data)) as [[s2 [r2|]]| | |]; cbn [bind fst snd]; try discriminate.
  2:{ intros E. injection E as <- <-. exists [(INewWritable f, XAns r1)], (IAppend o data). split; [reflexivity|]. split; [repeat constructor; discriminate|]. right. exists o, r1, []. do 3 (split; [auto|]).
      right. split; [auto|]. intros e [<-|[<-|[]]]; split; discriminate. }
  assert (D : forall s3 (t : xtrace) r3 s', answered t -> (forall e, In e t -> fst e <> IDelete o /\ forall g, fst e <> IRemove g) ->
    (exists t', t = (INewWritable f, XAns r1) :: t') -> forall tr,
    (let! (s4, tr, d) := (let! r := io s3 (IDelete o) in Ret (fst r, t ++ [(IDelete o, snd r)], snd r)) in
     match d with XThrow => Ret (s4, tr, Killed) | XAns _ =>
       if negb (ok (io_status r3)) then let! (s5, tr, d) := (let! r := io s4 (IRemove f) in Ret (fst r, tr ++ [(IRemove f, snd r)], snd r)) in match d with XThrow => Ret (s5, tr, Threw) | XAns _ => Ret (s5, tr, Done (io_status r3)) end
       else Ret (s4, tr, Done (io_status r3)) end) = Ret (s', tr, Threw) ->
    exists t c, tr = t ++ [(c, XThrow)] /\ answered t /\
      ((c = INewWritable f /\ t = []) \/
       (exists o r t', t = (INewWritable f, XAns r) :: t' /\ io_status r = SOk /\ io_ptr r = PObj o /\
         ((c = IRemove f /\ deleted_x t o) \/
          ((c = IAppend o data \/ (c = ISync o /\ sync = true) \/ c = IClose o) /\ (forall e, In e tr -> fst e <> IDelete o /\ forall g, fst e <> IRemove g)))))).
  { intros s3 t r3 s4 At Nt (t' & Et) tr1. destruct (io s3 (IDelete o)) as [[s5 [d|]]| | |]; cbn [bind fst snd]; try discriminate.
    destruct (ok (io_status r3)); cbn [negb]; [discriminate|]. destruct (io s5 (IRemove f)) as [[s6 [d2|]]| | |]; cbn [bind fst snd]; try discriminate.
    intros E. injection E as <- <-. exists (t ++ [(IDelete o, XAns d)]), (IRemove f). split; [reflexivity|]. split; [apply Forall_app; split; [exact At|repeat constructor; discriminate]|].
    right. exists o, r1, (t' ++ [(IDelete o, XAns d)]). split; [rewrite Et; reflexivity|]. do 2 (split; [auto|]). left. split; [auto|]. exists t, d, []. split; [reflexivity|]. split; [|easy].
    intros c x Hin. apply (Nt (c, x) Hin). }
  destruct (ok (io_status r2)) eqn:O2, sync; cbn [andb].
  - destruct (io s2 (ISync o)) as [[s3 [r3|]]| | |]; cbn [bind fst snd]; try discriminate.
    2:{ intros E. injection E as <- <-. exists [(INewWritable f, XAns r1); (IAppend o data, XAns r2)], (ISync o). split; [reflexivity|]. split; [repeat constructor; discriminate|]. right. exists o, r1, [(IAppend o data, XAns r2)]. do 3 (split; [auto|]).
        right. split; [auto|]. intros e [<-|[<-|[<-|[]]]]; split; discriminate. }
    destruct (ok (io_status r3)) eqn:O3.
    + destruct (io s3 (IClose o)) as [[s4 [r4|]]| | |]; cbn [bind fst snd]; try discriminate.
      2:{ intros E. injection E as <- <-. exists [(INewWritable f, XAns r1); (IAppend o data, XAns r2); (ISync o, XAns r3)], (IClose o). split; [reflexivity|]. split; [repeat constructor; discriminate|]. right. exists o, r1, [(IAppend o data, XAns r2); (ISync o, XAns r3)]. do 3 (split; [auto|]).
          right. split; [auto|]. intros e [<-|[<-|[<-|[<-|[]]]]]; split; discriminate. }
      apply D; [repeat constructor; discriminate| |cbn; eauto]. intros e [<-|[<-|[<-|[<-|[]]]]]; split; discriminate.
    + cbn [bind]. apply D; [repeat constructor; discriminate| |cbn; eauto]. intros e [<-|[<-|[<-|[]]]]; split; discriminate.
  - cbn [bind]. rewrite O2. destruct (io s2 (IClose o)) as [[s4 [r4|]]| | |]; cbn [bind fst snd]; try discriminate.
    2:{ intros E. injection E as <- <-. exists [(INewWritable f, XAns r1); (IAppend o data, XAns r2)], (IClose o). split; [reflexivity|]. split; [repeat constructor; discriminate|]. right. exists o, r1, [(IAppend o data, XAns r2)]. do 3 (split; [auto|]).
        right. split; [auto|]. intros e [<-|[<-|[<-|[]]]]; split; discriminate. }
    apply D; [repeat constructor; discriminate| |cbn; eauto]. intros e [<-|[<-|[<-|[]]]]; split; discriminate.
  - cbn [bind]. rewrite O2. cbn [bind]. apply D; [repeat constructor; discriminate| |cbn; eauto]. intros e [<-|[<-|[]]]; split; discriminate.
  - cbn [bind]. rewrite O2. cbn [bind]. apply D; [repeat constructor; discriminate| |cbn; eauto]. intros e [<-|[<-|[]]]; split; discriminate.
Qed.
Print Assumptions C117_write_that_throws.

(** ReadFileToString: whatever throws, the file object is deleted exactly once, as
    the last thing done; *data has what was read before, in order. *)
Fixpoint read_data_x (tr : xtrace) : list N :=
  match tr with
  | [] => []
  | (IRead _ _, XAns r) :: tr' => (if ok (io_status r) then io_data r else []) ++ read_data_x tr'
  | _ :: tr' => read_data_x tr'
  end.
Lemma read_data_x_app t t' : read_data_x (t ++ t') = read_data_x t ++ read_data_x t'.
Proof. induction t as [|[c [r|]] t IH]; [reflexivity| |]; destruct c; cbn [app read_data_x]; rewrite IH; auto. now rewrite app_assoc. Qed.
Lemma read_loop_x_ok S (io : S -> io_call -> outcome (S * xio)) short o : forall fuel k s tr data s' tr' e data',
  read_loop_x S io short fuel k s tr o data = Ret (s', tr', e, data') ->
  exists t rest, tr' = tr ++ t /\ Forall (fun x => fst x = IRead o 8192) t /\ data ++ read_data_x t = data' ++ rest /\ (rest <> [] -> e = Threw) /\ e <> Killed /\
    (e = Threw -> (exists k, short k = true) \/ exists c, In (c, XThrow) t).
Proof.
  induction fuel as [|fuel IH]; intros k s tr data s' tr' e data'; cbn [read_loop_x]; [discriminate|]. unfold call_x.
  destruct (io s (IRead o 8192)) as [[s1 [r|]]| | |]; cbn [bind fst snd]; try discriminate.
  2:{ intros E. injection E as <- <- <- <-. exists [(IRead o 8192, XThrow)], []. split; [reflexivity|]. split; [repeat constructor|]. split; [reflexivity|]. split; [congruence|]. split; [discriminate|]. intros _. right. exists (IRead o 8192). now left. }
  destruct (ok (io_status r)) eqn:Or; cbn [negb].
  2:{ intros E. injection E as <- <- <- <-. exists [(IRead o 8192, XAns r)], []. split; [reflexivity|]. split; [repeat constructor|]. split; [cbn; rewrite Or; reflexivity|]. split; [congruence|]. split; discriminate. }
  destruct (short k) eqn:Sk.
  { intros E. injection E as <- <- <- <-. exists [(IRead o 8192, XAns r)], (io_data r). split; [reflexivity|]. split; [repeat constructor|]. split; [cbn; rewrite Or, app_nil_r; reflexivity|]. split; [reflexivity|]. split; [discriminate|]. intros _. left. eauto. }
  destruct (io_data r) as [|x d] eqn:Dr.
  - intros E. injection E as <- <- <- <-. exists [(IRead o 8192, XAns r)], []. split; [reflexivity|]. split; [repeat constructor|]. split; [cbn; rewrite Or, Dr, !app_nil_r; reflexivity|]. split; [congruence|]. split; discriminate.
  - intros E. destruct (IH _ _ _ _ _ _ _ _ E) as (t & rest & -> & F & Ed & Er & Ek & Et). exists ((IRead o 8192, XAns r) :: t), rest. split; [now rewrite <- app_assoc|]. split; [constructor; auto|].
    split; [cbn [read_data_x]; rewrite Or, Dr, app_assoc; exact Ed|]. split; [auto|]. split; [auto|]. intros H. destruct (Et H) as [K|(c & K)]; [auto|]. right. exists c. now right.
Qed.
Theorem C117_read_deletes_the_file :
  forall S (io : S -> io_call -> outcome (S * xio)) no_space short fuel s f s' tr e data, read_file_x S io no_space short fuel s f = Ret (s', tr, e, data) ->
    (exists rest, read_data_x tr = data ++ rest /\ (rest <> [] -> e = Threw \/ e = Killed)) /\
    (forall r o, nth_error tr 0 = Some (INewSequential f, XAns r) -> io_ptr r = PObj o ->
       exists t d, tr = t ++ [(IDelete o, d)] /\ (forall c x, In (c, x) t -> c <> IDelete o) /\ (e = Killed <-> d = XThrow)) /\
    (e = Threw -> no_space = true \/ (exists k, short k = true) \/ exists c, In (c, XThrow) tr).
Proof.
  intros S io no_space short fuel s f s' tr e data. unfold read_file_x, call_x.
  destruct (io s (INewSequential f)) as [[s1 [r1|]]| | |]; cbn [bind fst snd app]; try discriminate.
  2:{ intros E. injection E as <- <- <- <-. split; [exists []; split; [reflexivity|congruence]|]. split; [intros r o H; discriminate H|]. intros _. right. right. exists (INewSequential f). now left. }
  destruct (ok (io_status r1)) eqn:O1; cbn [negb].
  - destruct (io_ptr r1) as [o| |] eqn:P1; cbn [deref bind]; try discriminate.
    assert (F : forall s2 tr2 e2 d2, (if no_space then Ret (s1, [(INewSequential f, XAns r1)], Threw, []) else read_loop_x S io short fuel 0 s1 [(INewSequential f, XAns r1)] o []) = Ret (s2, tr2, e2, d2) ->
      exists t rest, tr2 = (INewSequential f, XAns r1) :: t /\ Forall (fun x => fst x = IRead o 8192) t /\ read_data_x t = d2 ++ rest /\ (rest <> [] -> e2 = Threw) /\ e2 <> Killed /\
        (e2 = Threw -> no_space = true \/ (exists k, short k = true) \/ exists c, In (c, XThrow) t)).
    { intros s2 tr2 e2 d2. destruct no_space.
      - intros E. injection E as <- <- <- <-. exists [], []. split; [reflexivity|]. split; [constructor|]. split; [reflexivity|]. split; [congruence|]. split; [discriminate|auto].
      - intros E. destruct (read_loop_x_ok _ _ _ _ _ _ _ _ _ _ _ _ _ E) as (t & rest & -> & Ft & Ed & Er & Ek & Et). exists t, rest. cbn [app] in Ed |- *. split; [reflexivity|]. split; [auto|]. split; [auto|]. split; [auto|]. split; [auto|]. intros H. right. auto. }
    destruct (if no_space then _ else _) as [[[[s2 tr2] e2] d2]| | |]; cbn [bind]; try discriminate.
    destruct (F _ _ _ _ eq_refl) as (t & rest & -> & Ft & Ed & Er & Ek & Et). clear F.
    destruct (io s2 (IDelete o)) as [[s3 d]| | |]; cbn [bind fst snd]; try discriminate. intros E. injection E as <- <- <- <-. split; [|split].
    + exists rest. cbn [read_data_x app]. rewrite read_data_x_app, Ed. cbn [read_data_x]. split; [destruct d; now rewrite app_nil_r|]. intros H. destruct d; [left; auto|right; reflexivity].
    + intros r o' Hn Ho. cbn in Hn. injection Hn as <-. assert (o' = o) by congruence. subst o'. exists ((INewSequential f, XAns r1) :: t), d. split; [reflexivity|]. split.
      * intros c x [H|H]; [injection H as <- _; discriminate|]. rewrite Forall_forall in Ft. specialize (Ft _ H). cbn in Ft. subst c. discriminate.
      * destruct d; split; intros H; try discriminate; try reflexivity; contradiction.
    + destruct d; [|discriminate]. intros H. destruct (Et H) as [K|[K|(c & K)]]; auto. right. right. exists c. right. apply in_or_app. now left.
  - destruct (io_ptr r1) as [o| |] eqn:P1; [|intros E; injection E as <- <- <- <-; split; [exists []; split; [reflexivity|congruence]|]; split; [intros r o H Ho; cbn in H; injection H as <-; congruence|discriminate]|discriminate].
    destruct (io s1 (IDelete o)) as [[s3 d]| | |]; cbn [bind fst snd]; try discriminate. intros E. injection E as <- <- <- <-. split; [exists []; split; [destruct d; reflexivity|congruence]|]. split.
    + intros r o' Hn Ho. cbn in Hn. injection Hn as <-. assert (o' = o) by congruence. subst o'. exists [(INewSequential f, XAns r1)], d. split; [reflexivity|]. split; [intros c x [H|[]]; injection H as <- _; discriminate|].
      destruct d; split; intros H; try discriminate; reflexivity.
    + destruct d; discriminate.
Qed.
Print Assumptions C117_read_deletes_the_file.

(** No exception gets lost: if ReadFileToString returns, no call it made threw, there
    was memory for its buffer (if it came to need one), and for *data in every round. *)
Lemma read_loop_x_done S (io : S -> io_call -> outcome (S * xio)) short o : forall fuel k s tr data s' tr' st data',
  read_loop_x S io short fuel k s tr o data = Ret (s', tr', Done st, data') ->
  exists t, tr' = tr ++ t /\ (forall c, ~ In (c, XThrow) t) /\
    (forall j c r, nth_error t j = Some (c, XAns r) -> ok (io_status r) = true -> short (k + j) = false).
Proof.
  induction fuel as [|fuel IH]; intros k s tr data s' tr' st data'; cbn [read_loop_x]; [discriminate|]. unfold call_x.
  destruct (io s (IRead o 8192)) as [[s1 [r|]]| | |]; cbn [bind fst snd]; try discriminate.
  destruct (ok (io_status r)) eqn:Or; cbn [negb].
  2:{ intros E. injection E as <- <- _ _. exists [(IRead o 8192, XAns r)]. split; [reflexivity|]. split.
      - intros c [K|[]]. discriminate K.
      - intros [|[|j]] c r' K Ok'; cbn in K; try discriminate K. injection K as _ <-. congruence. }
  destruct (short k) eqn:Sk; [discriminate|].
  assert (B : forall c r', Some (IRead o 8192, XAns r) = Some (c, XAns r') -> short (k + 0) = false) by (intros; now rewrite Nat.add_0_r).
  destruct (io_data r) as [|x d] eqn:Dr.
  - intros E. injection E as <- <- _ _. exists [(IRead o 8192, XAns r)]. split; [reflexivity|]. split.
    + intros c [K|[]]. discriminate K.
    + intros [|[|j]] c r' K Ok'; cbn in K; try discriminate K. eapply B; eauto.
  - intros E. destruct (IH _ _ _ _ _ _ _ _ E) as (t & -> & F & G). exists ((IRead o 8192, XAns r) :: t). split; [now rewrite <- app_assoc|]. split.
    + intros c [K|K]; [discriminate K|exact (F c K)].
    + intros [|j] c r' K Ok'; [eapply B; eauto|]. replace (k + Datatypes.S j) with (Datatypes.S k + j) by lia. eapply G; eauto.
Qed.
Theorem C117_read_loses_no_exception :
  forall S (io : S -> io_call -> outcome (S * xio)) no_space short fuel s f s' tr st data,
    read_file_x S io no_space short fuel s f = Ret (s', tr, Done st, data) ->
    (forall c, ~ In (c, XThrow) tr) /\
    (forall r, nth_error tr 0 = Some (INewSequential f, XAns r) -> ok (io_status r) = true -> no_space = false) /\
    (forall k o n r, nth_error tr (Datatypes.S k) = Some (IRead o n, XAns r) -> ok (io_status r) = true -> short k = false).
Proof.
  intros S io no_space short fuel s f s' tr st data. unfold read_file_x, call_x.
  destruct (io s (INewSequential f)) as [[s1 [r1|]]| | |]; cbn [bind fst snd app]; try discriminate.
  destruct (ok (io_status r1)) eqn:O1; cbn [negb].
  - destruct (io_ptr r1) as [o| |] eqn:P1; cbn [deref bind]; try discriminate.
    destruct no_space; cbn [bind].
    { destruct (io s1 (IDelete o)) as [[s3 [d|]]| | |]; cbn [bind fst snd]; discriminate. }
    destruct (read_loop_x S io short fuel 0 s1 [(INewSequential f, XAns r1)] o []) as [[[[s2 tr2] e2] d2]| | |] eqn:L; cbn [bind]; try discriminate.
    destruct (io s2 (IDelete o)) as [[s3 [d|]]| | |]; cbn [bind fst snd]; try discriminate.
    intros E. injection E as <- <- -> <-. destruct (read_loop_x_done _ _ _ _ _ _ _ _ _ _ _ _ _ L) as (t & -> & F & G).
    split; [|split].
    + intros c [K|K]; [discriminate K|]. apply in_app_or in K as [K|[K|[]]]; [exact (F c K)|discriminate K].
    + reflexivity.
    + intros k o' n r K Ok'. cbn [app nth_error] in K. destruct (le_lt_dec (length t) k) as [Hk|Hk].
      * rewrite nth_error_app2 in K by exact Hk. destruct (k - length t) as [|[|m]]; cbn in K; discriminate K.
      * rewrite nth_error_app1 in K by exact Hk. exact (G k _ r K Ok').
  - assert (N : forall r, Some (INewSequential f, XAns r1) = Some (INewSequential f, XAns r) -> ok (io_status r) = true -> no_space = false)
      by (intros r K Ok'; injection K as <-; congruence).
    destruct (io_ptr r1) as [o| |] eqn:P1; [| |discriminate].
    + destruct (io s1 (IDelete o)) as [[s3 [d|]]| | |]; cbn [bind fst snd]; try discriminate. intros E. injection E as <- <- _ _.
      split; [intros c [K|[K|[]]]; discriminate K|]. split; [exact N|]. intros [|[|k]] o' n r K; cbn in K; discriminate K.
    + intros E. injection E as <- <- _ _. split; [intros c [K|[]]; discriminate K|]. split; [exact N|]. intros [|k] o' n r K; cbn in K; discriminate K.
Qed.
Print Assumptions C117_read_loses_no_exception.

(** "WriteStringToFile deletes the file object and removes the file whenever it
    does not succeed" is false: the environment's Append throws.  (So it is for
    PosixEnv, C116, when the disk is full and memory exhausted.) *)
Theorem C117_write_cleans_up_refuted :
  forall f d sync, exists (io : unit -> io_call -> outcome (unit * xio)) tr,
    (forall s c, exists s' r, io s c = Ret (s', r)) /\ do_write_x unit io tt d f sync = Ret (tt, tr, Threw) /\
    map fst tr = [INewWritable f; IAppend 0 d].
Proof.
  intros f d sync. exists (fun _ c => Ret (tt, match c with IAppend _ _ => XThrow | _ => XAns (mk_io SOk (PObj 0) []) end)). eexists.
  split; [eauto|]. split; reflexivity.
Qed.
Print Assumptions C117_write_cleans_up_refuted.

(** Reading two fragments, no memory for the second. *)
Example C117_example : exists s' tr, read_file_x nat (fun n c => Ret (Datatypes.S n, XAns (mk_io SOk (PObj 5) [N.of_nat n]))) false (fun k => k =? 1) 10 0 [97%N] = Ret (s', tr, Threw, [1%N]) /\
  map fst tr = [INewSequential [97%N]; IRead 5 8192; IRead 5 8192; IDelete 5].
Proof. do 2 eexists. split; reflexivity. Qed.
