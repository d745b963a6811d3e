(** PosixConcSafe.v -- what every program of PosixConc.v holds and gives back. *)
From Coq Require Import List Arith NArith ZArith Lia Bool Permutation.
From Verif Require Import Outcome Status MemEnv MemEnvMem PosixOs PosixWritable PosixWritableSpec PosixWritableProofs PosixRead PosixEnv PosixFs PosixEnvSpec PosixConc.
Import ListNotations.

(** Things a call or an object may hold: a descriptor, a mapping, a directory
    stream, a slot of a limiter, a decrement of a limiter still to be undone. *)
Inductive item := IFd (fd : Z) | IMap (b len : N) | IDir (d : N) | ISlot (l : which) | IDebt (l : which).
(** [true]: it came with the object. *)
Definition titem : Type := bool * item.
Definition items (o : pobj) : list item :=
  match o with
  | ObW f => if (0 <=? f_fd f)%Z then [IFd (f_fd f)] else []
  | ObS f => [IFd (sq_fd f)]
  | ObR (RPerm fd _) => [IFd fd; ISlot LFd]
  | ObR (RTemp _) => []
  | ObR (RMmap b n _) => [IMap b n; ISlot LMmap]
  end.

Definition ok_fd (bor : list item) (R : list titem) (fd : Z) : Prop := (fd = -1)%Z \/ In (IFd fd) (map snd R ++ bor).
Definition frees (R : list titem) (i : item) (Q : list titem -> Prop) : Prop := exists b R', Permutation R ((b, i) :: R') /\ Q R'.

Fixpoint safe {A} (bor : list item) (Q : A -> list titem -> Prop) (R : list titem) (p : prog A) {struct p} : Prop :=
  match p with
  | PDone a => Q a R
  | PBad o => o = BadFuel
  | PSys c k =>
      match c with
      | COpen _ _ => forall a, ((a_ret a < 0)%Z -> safe bor Q R (k a)) /\ ((0 <= a_ret a)%Z -> safe bor Q ((false, IFd (a_ret a)) :: R) (k a))
      | CClose fd => (fd = -1)%Z /\ (forall a, safe bor Q R (k a)) \/ frees R (IFd fd) (fun R' => forall a, safe bor Q R' (k a))
      | CWrite fd d => ok_fd bor R fd /\ forall a, (a_ret a <= Z.of_nat (length d))%Z -> safe bor Q R (k a)
      | CRead fd n | CPread fd n _ => ok_fd bor R fd /\ forall a, (a_ret a <= Z.of_N n)%Z -> safe bor Q R (k a)
      | CLseek fd _ | CFsync fd => ok_fd bor R fd /\ forall a, safe bor Q R (k a)
      | CMmap fd len => (ok_fd bor R fd /\ In (ISlot LMmap) (map snd R) /\ forall b l, ~ In (IMap b l) (map snd R)) /\
          forall a, (a_ret a = (-1)%Z -> safe bor Q R (k a)) /\ ((0 <= a_ret a)%Z -> safe bor Q ((false, IMap (a_val a) len) :: R) (k a))
      | CMunmap b len => frees R (IMap b len) (fun R' => forall a, safe bor Q R' (k a))
      | COpendir _ => forall a, (a_val a = 0%N -> safe bor Q R (k a)) /\ (a_val a <> 0%N -> safe bor Q ((false, IDir (a_val a)) :: R) (k a))
      | CReaddir d => In (IDir d) (map snd R) /\ forall a, safe bor Q R (k a)
      | CClosedir d => frees R (IDir d) (fun R' => forall a, safe bor Q R' (k a))
      | CStat _ | CAccess _ | CUnlink _ | CMkdir _ | CRmdir _ | CRename _ _ => forall a, safe bor Q R (k a)
      | _ => False
      end
  | PSub l k => forall z, ((0 < z)%Z -> safe bor Q ((false, ISlot l) :: R) (k z)) /\ ((z <= 0)%Z -> safe bor Q ((false, IDebt l) :: R) (k z))
  | PAdd l k => frees R (ISlot l) (fun R' => R' = [] /\ safe bor Q R' k) \/ frees R (IDebt l) (fun R' => safe bor Q R' k)
  end.

Lemma safe_impl {A} bor (Q Q' : A -> list titem -> Prop) p : (forall a R, Q a R -> Q' a R) -> forall R, safe bor Q R p -> safe bor Q' R p.
Proof.
  intros HQ. induction p as [a|o|c k IH|l k IH|l k IH]; intros R; cbn [safe].
  - apply HQ.
  - auto.
  - destruct c; auto; try (intros H; intros; apply IH; apply H).
    + intros H a. destruct (H a) as (H1 & H2). split; intros; apply IH; auto.
    + intros [(E & H)|(b & R' & P & H)]; [left; split; [exact E|]; intros; apply IH; apply H|right; exists b, R'; split; [exact P|]; intros; apply IH; apply H].
    + intros (E & H). split; [exact E|]. intros; apply IH; apply H; assumption.
    + intros (E & H). split; [exact E|]. intros; apply IH; apply H; assumption.
    + intros (E & H). split; [exact E|]. intros; apply IH; apply H; assumption.
    + intros (E & H). split; [exact E|]. intros; apply IH; apply H; assumption.
    + intros (E & H). split; [exact E|]. intros; apply IH; apply H; assumption.
    + intros (E & H). split; [exact E|]. intros a. destruct (H a) as (H1 & H2). split; intros; apply IH; auto.
    + intros (b & R' & P & H). exists b, R'. split; [exact P|]. intros; apply IH; apply H.
    + intros H a. destruct (H a) as (H1 & H2). split; intros; apply IH; auto.
    + intros (E & H). split; [exact E|]. intros; apply IH; apply H; assumption.
    + intros (b & R' & P & H). exists b, R'. split; [exact P|]. intros; apply IH; apply H.
  - intros H z. destruct (H z) as (H1 & H2). split; intros; apply IH; auto.
  - intros [(b & R' & P & E & H)|(b & R' & P & H)]; [left; exists b, R'; split; [exact P|]; split; [exact E|apply IH; exact H]|right; exists b, R'; split; [exact P|apply IH; exact H]].
Qed.
Lemma safe_bind {A C} bor (Q : C -> list titem -> Prop) (f : A -> prog C) p : forall R,
  safe bor (fun a R' => safe bor Q R' (f a)) R p -> safe bor Q R (pbind p f).
Proof.
  induction p as [a|o|c k IH|l k IH|l k IH]; intros R; cbn [safe pbind]; auto.
  - destruct c; auto; try (intros H; intros; apply IH; apply H).
    + intros H a. destruct (H a) as (H1 & H2). split; intros; apply IH; auto.
    + intros [(E & H)|(b & R' & P & H)]; [left; split; [exact E|]; intros; apply IH; apply H|right; exists b, R'; split; [exact P|]; intros; apply IH; apply H].
    + intros (E & H). split; [exact E|]. intros; apply IH; apply H; assumption.
    + intros (E & H). split; [exact E|]. intros; apply IH; apply H; assumption.
    + intros (E & H). split; [exact E|]. intros; apply IH; apply H; assumption.
    + intros (E & H). split; [exact E|]. intros; apply IH; apply H; assumption.
    + intros (E & H). split; [exact E|]. intros; apply IH; apply H; assumption.
    + intros (E & H). split; [exact E|]. intros a. destruct (H a) as (H1 & H2). split; intros; apply IH; auto.
    + intros (b & R' & P & H). exists b, R'. split; [exact P|]. intros; apply IH; apply H.
    + intros H a. destruct (H a) as (H1 & H2). split; intros; apply IH; auto.
    + intros (E & H). split; [exact E|]. intros; apply IH; apply H; assumption.
    + intros (b & R' & P & H). exists b, R'. split; [exact P|]. intros; apply IH; apply H.
  - intros H z. destruct (H z) as (H1 & H2). split; intros; apply IH; auto.
  - intros [(b & R' & P & E & H)|(b & R' & P & H)]; [left; exists b, R'; split; [exact P|]; split; [exact E|apply IH; exact H]|right; exists b, R'; split; [exact P|apply IH; exact H]].
Qed.

(** What a call leaves: nothing, or what its object holds.  [good]: an object as
    calls leave it. *)
Definition good (B : nat) (o : pobj) : Prop :=
  match o with
  | ObW f => (exists b, brep B f b) /\ ((f_fd f = -1)%Z \/ (0 <= f_fd f)%Z)
  | ObS f => (0 <= sq_fd f)%Z
  | ObR (RPerm fd _) => (0 <= fd)%Z
  | ObR _ => True
  end.
Definition kind_of (o : pobj) : kind := match o with ObW _ => KWrite | ObS _ => KSeq | ObR _ => KRand end.
Definition oname (o : pobj) : str := match o with ObW f => f_name f | ObS f => sq_name f | ObR (RPerm _ f | RTemp f | RMmap _ _ f) => f end.
Definition post (B : nat) (x : pcall) (o : option pobj) (r : option pobj * presult) (R : list titem) : Prop :=
  match on x, o with
  | None, _ =>
      match fst r with
      | Some o' => good B o' /\ Permutation R (map (pair false) (items o')) /\ snd r = QStat SOk /\ opens x = Some (kind_of o', oname o')
      | None => R = [] /\ (snd r = QStat SOk -> opens x = None)
      end
  | Some h, Some o =>
      if shared x then R = []
      else match x with
           | PDelete _ => fst r = None /\ R = [] /\ snd r = QStat SOk
           | _ => exists o', fst r = Some o' /\ good B o' /\ (kind_of o' = kind_of o /\ oname o' = oname o) /\ Permutation R (map (pair true) (items o'))
           end
  | Some h, None => False
  end.

Section Safe.
  Variable dbg : bool.
  Variable B : nat.
  Variable strerror : Z -> str.
  Notation PosixError := (PosixError strerror).

  Lemma posix_error ctx e : PosixError ctx e <> SOk.
  Proof. unfold PosixOs.PosixError. destruct (e =? ENOENT)%Z; discriminate. Qed.

  Lemma safe_write bor R fd name : ok_fd bor R fd -> forall fuel data, safe bor (fun _ R' => R' = R) R (pwrite_unbuffered strerror fuel fd name data).
  Proof.
    intros Ho fuel. induction fuel as [|fuel IH]; intros [|b data]; cbn [pwrite_unbuffered]; try reflexivity.
    unfold psys. cbn [pbind safe]. split; [exact Ho|]. intros a Ha. destruct (a_ret a <? 0)%Z; [destruct (a_errno a =? EINTR)%Z; [apply IH|reflexivity]|].
    destruct (Z.ltb_spec (Z.of_nat (length (b :: data))) (a_ret a)); [lia|]. apply IH.
  Qed.
  Lemma read_buf f b : brep B f b -> bread_n (f_buf f) 0 (f_pos f) = Ret b.
  Proof. intros (Lb & Hp & Hl & Hd). rewrite Hp. apply bread_n_firstn; cbn [skipn]; auto. Qed.
  Lemma safe_flush bor R f b fuel : brep B f b -> ok_fd bor R (f_fd f) ->
    safe bor (fun r R' => R' = R /\ fst r = set_buf f (f_buf f) 0) R (pflush_buffer strerror fuel f).
  Proof.
    intros Rb Ho. unfold pflush_buffer. rewrite (read_buf f b Rb). cbn [plift pbind]. apply safe_bind.
    eapply safe_impl; [|apply safe_write; exact Ho]. intros st R' ->. cbn [safe fst]. auto.
  Qed.
  Definition keeps (f : wfile) (R : list titem) (r : wfile * status) (R' : list titem) : Prop :=
    R' = R /\ f_fd (fst r) = f_fd f /\ exists b, brep B (fst r) b /\ f_name (fst r) = f_name f.
  Lemma safe_append bor R f b d fuel : brep B f b -> ok_fd bor R (f_fd f) -> safe bor (keeps f R) R (pappend B strerror fuel f d).
  Proof.
    intros Rb Ho. pose proof Rb as (H1 & H2 & H3 & H4). unfold pappend. rewrite H2.
    replace (B <? length b) with false by (symmetry; apply Nat.ltb_ge; lia).
    set (k := Nat.min (length d) (B - length b)) in *.
    assert (Lk : length (firstn k d) = k) by (apply firstn_length_le; unfold k; lia).
    destruct (bput_bytes (f_buf f) (length b) (firstn k d)) as [buf| | |] eqn:Eb;
      [|rewrite bput_bytes_mid in Eb by (rewrite Lk, H1; unfold k; lia); discriminate..].
    cbn [plift pbind]. assert (R1 := put_brep B f b buf (firstn k d) Rb). rewrite Lk in R1.
    specialize (R1 ltac:(unfold k; lia) Eb). set (f1 := set_buf f buf (length b + k)) in *.
    destruct (skipn k d) as [|x rest] eqn:Es.
    - cbn [safe]. split; [reflexivity|]. split; [reflexivity|]. eexists. split; [exact R1|reflexivity].
    - rewrite <- Es in *. apply safe_bind. eapply safe_impl; [|exact (safe_flush bor R f1 (b ++ firstn k d) fuel R1 Ho)].
      intros [f2 st] R' (-> & E). cbn [fst] in E. subst f2. assert (Lb : length buf = B) by exact (proj1 R1).
      assert (E0 := brep_empty B f1 buf Lb). destruct st as [|kd m1 m2].
      + destruct (Nat.ltb_spec (length (skipn k d)) B) as [Hlt|Hge].
        * cbn [set_buf f_buf f1]. destruct (bput_bytes buf 0 (skipn k d)) as [buf2| | |] eqn:Eb2; [|rewrite bput_bytes_mid in Eb2 by lia; discriminate..].
          cbn [plift pbind safe]. assert (R2 := put_brep B (set_buf f1 buf 0) [] buf2 (skipn k d) E0 ltac:(cbn [length]; lia) Eb2).
          split; [reflexivity|]. split; [reflexivity|]. eexists. split; [exact R2|reflexivity].
        * apply safe_bind. eapply safe_impl; [|apply safe_write; exact Ho]. intros st R' ->. cbn [safe]. split; [reflexivity|]. split; [reflexivity|]. exists []. split; [exact E0|reflexivity].
      + cbn [safe]. split; [reflexivity|]. split; [reflexivity|]. exists []. split; [exact E0|reflexivity].
  Qed.
  Lemma safe_sync_fd bor R fd p : ok_fd bor R fd -> safe bor (fun _ R' => R' = R) R (psync_fd strerror fd p).
  Proof. intros Ho. unfold psync_fd, psys. cbn [pbind safe]. split; [exact Ho|]. reflexivity. Qed.
  Lemma safe_sync_dir bor R f : safe bor (fun _ R' => R' = R) R (psync_dir strerror f).
  Proof.
    unfold psync_dir. destruct (f_manifest f); cbn [negb]; [|reflexivity]. unfold psys at 1. cbn [pbind safe]. intros a. split; intros Ha.
    - replace (a_ret a <? 0)%Z with true by (symmetry; apply Z.ltb_lt; lia). reflexivity.
    - replace (a_ret a <? 0)%Z with false by (symmetry; apply Z.ltb_ge; lia). apply safe_bind. eapply safe_impl; [|apply safe_sync_fd; right; left; reflexivity].
      intros st R' ->. unfold psys. cbn [pbind safe]. right. exists false, R. split; [reflexivity|]. reflexivity.
  Qed.
  Lemma safe_sync bor R f b fuel : brep B f b -> ok_fd bor R (f_fd f) -> safe bor (keeps f R) R (psync strerror fuel f).
  Proof.
    intros Rb Ho. unfold psync. apply safe_bind. eapply safe_impl; [|apply safe_sync_dir]. intros st R' ->. destruct st as [|kd m1 m2].
    - apply safe_bind. eapply safe_impl; [|exact (safe_flush bor R f b fuel Rb Ho)]. intros [f2 st] R' (-> & E). cbn [fst] in E. subst f2.
      assert (E0 := brep_empty B f (f_buf f) (proj1 Rb)). destruct st as [|kd m1 m2].
      + apply safe_bind. eapply safe_impl; [|apply safe_sync_fd; exact Ho]. intros st R' ->. cbn [safe]. split; [reflexivity|]. split; [reflexivity|]. exists []. split; [exact E0|reflexivity].
      + cbn [safe]. split; [reflexivity|]. split; [reflexivity|]. exists []. split; [exact E0|reflexivity].
    - cbn [safe]. split; [reflexivity|]. split; [reflexivity|]. exists b. split; [exact Rb|reflexivity].
  Qed.
  Definition wheld (f : wfile) : list titem := map (pair true) (items (ObW f)).
  Lemma wheld_ok f : good B (ObW f) -> ok_fd [] (wheld f) (f_fd f).
  Proof.
    intros (_ & [E|E]); [left; exact E|]. right. unfold wheld. cbn [items]. replace (0 <=? f_fd f)%Z with true by (symmetry; apply Z.leb_le; exact E). left. reflexivity.
  Qed.
  Lemma safe_close f fuel : good B (ObW f) ->
    safe [] (fun r R' => R' = [] /\ f_fd (fst r) = (-1)%Z /\ exists b, brep B (fst r) b /\ f_name (fst r) = f_name f) (wheld f) (pclose strerror fuel f).
  Proof.
    intros G. pose proof (wheld_ok f G) as Ho. destruct G as ((b & Rb) & Fd). unfold pclose. apply safe_bind. eapply safe_impl; [|exact (safe_flush [] (wheld f) f b fuel Rb Ho)].
    intros [f2 st] R' (-> & E). cbn [fst] in E. subst f2. unfold psys. cbn [pbind safe set_buf f_fd].
    assert (E0 := brep_empty B f (f_buf f) (proj1 Rb)).
    assert (P : forall a : answer, ([] : list titem) = [] /\ (-1)%Z = (-1)%Z /\ (exists b0, brep B (set_fd (set_buf f (f_buf f) 0) (-1)) b0 /\ f_name f = f_name f)) by (intros; split; [reflexivity|]; split; [reflexivity|]; exists []; split; [exact E0|reflexivity]).
    unfold wheld. cbn [items]. destruct Fd as [E|E].
    - left. rewrite E. split; [reflexivity|]. exact P.
    - right. replace (0 <=? f_fd f)%Z with true by (symmetry; apply Z.leb_le; exact E). exists true, []. split; [reflexivity|]. exact P.
  Qed.
  Lemma safe_seq_read bor R f n : ok_fd bor R (sq_fd f) -> forall fuel, safe bor (fun _ R' => R' = R) R (pseq_read strerror fuel f n).
  Proof.
    intros Ho fuel. induction fuel as [|fuel IH]; cbn [pseq_read]; [reflexivity|]. unfold psys. cbn [pbind safe]. split; [exact Ho|]. intros a Ha.
    destruct (a_ret a <? 0)%Z; [destruct (a_errno a =? EINTR)%Z; [exact IH|reflexivity]|]. destruct (Z.ltb_spec (Z.of_N n) (a_ret a)); [lia|reflexivity].
  Qed.
  Lemma safe_read_dir bor R d : In (IDir d) (map snd R) -> forall fuel l, safe bor (fun _ R' => R' = R) R (pread_dir fuel d l).
  Proof.
    intros Ho fuel. induction fuel as [|fuel IH]; intros l; cbn [pread_dir]; [reflexivity|]. unfold psys. cbn [pbind safe]. split; [exact Ho|]. intros a.
    destruct (a_ret a =? 0)%Z; [reflexivity|apply IH].
  Qed.
  Lemma safe_new_random f : safe [] (post B (PNewRand f) None) [] (pnew_random strerror f).
  Proof.
    unfold pnew_random, psys. cbn [pbind safe]. intros a. split; intros Ha.
    { replace (a_ret a <? 0)%Z with true by (symmetry; apply Z.ltb_lt; lia). cbn [safe]. unfold post. cbn [on fst snd]. split; [reflexivity|]. intros E. injection E as E. contradiction (posix_error _ _ E). }
    replace (a_ret a <? 0)%Z with false by (symmetry; apply Z.ltb_ge; lia). unfold pacquire. cbn [pbind safe]. intros z. split; intros Hz.
    - replace (0 <? z)%Z with true by (symmetry; apply Z.ltb_lt; lia). cbn [pbind negb]. unfold pget_file_size, psys. cbn [pbind safe]. intros s.
      destruct (a_ret s =? 0)%Z eqn:Es; cbn [negb].
      + cbn [pbind safe]. split; [split; [right; right; left; reflexivity|]; split; [left; reflexivity|]; intros b l [X|[X|[]]]; discriminate X|]. intros m. split; intros Hm.
        * rewrite Hm. cbn [Z.eqb Pos.eqb negb pbind safe]. right. exists false, [(false, ISlot LMmap)]. split; [apply perm_swap|]. intros c.
          unfold PosixOs.PosixError. destruct (a_errno m =? ENOENT)%Z; cbn [safe]; left; exists false, []; (split; [reflexivity|]); (split; [reflexivity|]); unfold post; cbn [on fst snd]; (split; [reflexivity|discriminate]).
        * destruct (a_ret m =? -1)%Z eqn:Em; [apply Z.eqb_eq in Em; lia|]. cbn [negb pbind safe]. right. exists false, [(false, IMap (a_val m) (a_val s)); (false, ISlot LMmap)].
          split; [apply (Permutation_app_comm [(false, IMap (a_val m) (a_val s)); (false, ISlot LMmap)] [(false, IFd (a_ret a))])|].
          intros c. unfold post. cbn [on fst snd]. split; [exact Logic.I|]. split; [reflexivity|]. split; [reflexivity|]. reflexivity.
      + unfold PosixOs.PosixError. destruct (a_errno s =? ENOENT)%Z; cbn [pbind safe]; right; exists false, [(false, ISlot LMmap)]; (split; [apply perm_swap|]); intros c; left; exists false, []; (split; [reflexivity|]); (split; [reflexivity|]); unfold post; cbn [on fst snd]; (split; [reflexivity|discriminate]).
    - replace (0 <? z)%Z with false by (symmetry; apply Z.ltb_ge; lia). cbn [pbind safe]. right. exists false, [(false, IFd (a_ret a))]. split; [reflexivity|]. cbn [pbind negb].
      unfold pnew_pread, pacquire. cbn [pbind safe]. intros y. split; intros Hy.
      + replace (0 <? y)%Z with true by (symmetry; apply Z.ltb_lt; lia). cbn [pbind safe]. unfold post. cbn [on fst snd items]. split; [exact Ha|]. split; [apply perm_swap|]. split; [reflexivity|]. reflexivity.
      + replace (0 <? y)%Z with false by (symmetry; apply Z.ltb_ge; lia). cbn [pbind safe]. right. exists false, [(false, IFd (a_ret a))]. split; [reflexivity|]. cbn [pbind safe]. unfold psys. cbn [pbind safe].
        right. exists false, []. split; [reflexivity|]. intros c. unfold post. cbn [on fst snd]. split; [exact Logic.I|]. split; [reflexivity|]. split; [reflexivity|]. reflexivity.
  Qed.
  Lemma assert_fd fd : (0 <= fd)%Z -> assert_ dbg (negb (fd =? -1)%Z) = Ret tt.
  Proof. intros H. unfold assert_. destruct (Z.eqb_spec fd (-1)); [lia|]. cbn [negb]. now rewrite andb_false_r. Qed.
  Lemma safe_ran_read f off n : good B (ObR f) -> safe (items (ObR f)) (fun _ R' => R' = []) [] (pran_read dbg strerror f off n).
  Proof.
    intros G. destruct f as [fd name|name|base len name]; cbn [pran_read].
    - cbn [good] in G. rewrite (assert_fd fd G). unfold psys. cbn [plift pbind safe]. split; [right; left; reflexivity|]. intros a Ha. destruct (Z.ltb_spec (Z.of_N n) (a_ret a)); [lia|reflexivity].
    - unfold psys. cbn [pbind safe]. intros o. split; intros Ho.
      + replace (a_ret o <? 0)%Z with true by (symmetry; apply Z.ltb_lt; lia). reflexivity.
      + replace (a_ret o <? 0)%Z with false by (symmetry; apply Z.ltb_ge; lia). rewrite (assert_fd _ Ho). cbn [plift pbind safe]. split; [right; left; reflexivity|]. intros a Ha.
        destruct (Z.ltb_spec (Z.of_N n) (a_ret a)); [lia|]. cbn [plift pbind safe]. right. exists false, []. split; [reflexivity|]. reflexivity.
    - reflexivity.
  Qed.
  Lemma safe_new_writable x f fl : opens x = Some (KWrite, f) -> on x = None -> safe [] (post B x None) [] (pnew_writable dbg B strerror f fl).
  Proof.
    intros Ox Nx. unfold pnew_writable, psys. cbn [pbind safe]. intros a. unfold post. rewrite Nx. split; intros Ha.
    - replace (a_ret a <? 0)%Z with true by (symmetry; apply Z.ltb_lt; lia). cbn [safe fst snd]. split; [reflexivity|]. intros E. injection E as E. contradiction (posix_error _ _ E).
    - replace (a_ret a <? 0)%Z with false by (symmetry; apply Z.ltb_ge; lia). destruct (new_wfile_ok dbg B f (a_ret a)) as (m & d & E & _). rewrite E. cbn [plift pbind safe fst snd].
      split; [|split; [|split; [reflexivity|exact Ox]]].
      + cbn [good]. split; [|right; exact Ha]. exists []. repeat split; cbn [f_buf f_pos length]; [apply repeat_length|lia].
      + cbn [items f_fd]. replace (0 <=? a_ret a)%Z with true by (symmetry; apply Z.leb_le; exact Ha). reflexivity.
  Qed.

  (** Every call is safe. *)
  Definition borrow (x : pcall) (o : option pobj) : list item := if shared x then match o with Some o => items o | None => [] end else [].
  Definition start_with (x : pcall) (o : option pobj) : list titem :=
    if shared x then [] else match o with Some o => map (pair true) (items o) | None => [] end.
  Lemma safe_prog_of fuel x o :
    match on x with Some _ => exists p, o = Some p /\ good B p /\ fits x p | None => o = None end ->
    safe (borrow x o) (post B x o) (start_with x o) (prog_of dbg B strerror fuel x o).
  Proof.
    destruct x; cbn [on]; unfold borrow, start_with; cbn [shared].
    - intros ->. cbn [prog_of]. unfold pnew_sequential, psys. cbn [pbind safe]. intros a. unfold post. cbn [on]. split; intros Ha.
      + replace (a_ret a <? 0)%Z with true by (symmetry; apply Z.ltb_lt; lia). cbn [safe fst snd]. split; [reflexivity|]. intros E. injection E as E. contradiction (posix_error _ _ E).
      + replace (a_ret a <? 0)%Z with false by (symmetry; apply Z.ltb_ge; lia). cbn [safe fst snd]. split; [exact Ha|]. split; [reflexivity|]. split; [reflexivity|]. reflexivity.
    - intros ->. cbn [prog_of]. apply safe_new_random.
    - intros ->. cbn [prog_of]. apply safe_new_writable; reflexivity.
    - intros ->. cbn [prog_of]. apply safe_new_writable; reflexivity.
    - intros ->. cbn [prog_of]. unfold psys. cbn [pbind safe]. intros a. unfold post. cbn. split; [reflexivity|discriminate].
    - intros ->. cbn [prog_of]. apply safe_bind. unfold pget_children, psys. cbn [pbind safe]. intros a. split; intros Ha.
      + rewrite Ha. cbn. split; [reflexivity|discriminate].
      + destruct (N.eqb_spec (a_val a) 0); [contradiction|]. apply safe_bind. eapply safe_impl; [|apply safe_read_dir; left; reflexivity]. intros l R' ->. cbn [pbind safe].
        exists false, []. split; [reflexivity|]. intros c. unfold post. cbn. split; [reflexivity|discriminate].
    - intros ->. cbn [prog_of]. unfold pask, psys. cbn [pbind safe]. intros a. unfold post. cbn. auto.
    - intros ->. cbn [prog_of]. unfold pget_file_size, psys. cbn [pbind safe]. intros a. unfold post. destruct (negb _); cbn; auto.
    - intros ->. cbn [prog_of]. unfold pask, psys. cbn [pbind safe]. intros a'. unfold post. cbn. auto.
    - intros ->. cbn [prog_of]. unfold pask, psys. cbn [pbind safe]. intros a'. unfold post. cbn. auto.
    - intros ->. cbn [prog_of]. unfold pask, psys. cbn [pbind safe]. intros a'. unfold post. cbn. auto.
    - intros (p & -> & G & F). destruct p as [f|f|f]; try contradiction. cbn [prog_of]. apply safe_bind. eapply safe_impl; [|apply safe_seq_read; right; left; reflexivity].
      intros [st r] R' ->. cbn [safe]. unfold post. cbn [on shared]. exists (ObS f). repeat split; auto.
    - intros (p & -> & G & F). destruct p as [f|f|f]; try contradiction. cbn [prog_of]. unfold pseq_skip, psys. cbn [pbind safe]. split; [right; left; reflexivity|]. intros a.
      unfold post. cbn [on shared]. exists (ObS f). repeat split; auto.
    - intros (p & -> & G & F). destruct p as [f|f|f]; try contradiction. cbn [prog_of]. apply safe_bind. eapply safe_impl; [|apply safe_ran_read; exact G].
      intros [st r] R' ->. reflexivity.
    - intros (p & -> & G & F). destruct p as [f|f|f]; try contradiction. cbn [prog_of]. unfold pw. apply safe_bind. pose proof (wheld_ok f G) as Ho. destruct G as ((b & Rb) & Fd).
      eapply safe_impl; [|exact (safe_append [] (wheld f) f b d fuel Rb Ho)]. intros [f' st] R' (-> & Ef & b' & Rb' & Nm). cbn [fst] in *. cbn [safe]. unfold post. cbn [on shared]. exists (ObW f').
      split; [reflexivity|]. split; [cbn [good]; rewrite Ef; split; [eauto|exact Fd]|]. split; [split; [reflexivity|exact Nm]|]. unfold wheld. cbn [items]. rewrite Ef. reflexivity.
    - intros (p & -> & G & F). destruct p as [f|f|f]; try contradiction. cbn [prog_of]. unfold pw. apply safe_bind. eapply safe_impl; [|exact (safe_close f fuel G)].
      intros [f' st] R' (-> & Ef & b' & Rb' & Nm). cbn [fst] in *. cbn [safe]. unfold post. cbn [on shared]. exists (ObW f').
      split; [reflexivity|]. split; [cbn [good]; split; [eauto|left; exact Ef]|]. split; [split; [reflexivity|exact Nm]|]. cbn [items]. rewrite Ef. reflexivity.
    - intros (p & -> & G & F). destruct p as [f|f|f]; try contradiction. cbn [prog_of]. unfold pw. apply safe_bind. pose proof (wheld_ok f G) as Ho. destruct G as ((b & Rb) & Fd).
      eapply safe_impl; [|exact (safe_flush [] (wheld f) f b fuel Rb Ho)]. intros [f' st] R' (-> & Ef). cbn [fst] in *. subst f'. cbn [safe]. unfold post. cbn [on shared]. exists (ObW (set_buf f (f_buf f) 0)).
      split; [reflexivity|]. split; [cbn [good]; split; [exists []; exact (brep_empty B f (f_buf f) (proj1 Rb))|exact Fd]|]. split; [split; reflexivity|reflexivity].
    - intros (p & -> & G & F). destruct p as [f|f|f]; try contradiction. cbn [prog_of]. unfold pw. apply safe_bind. pose proof (wheld_ok f G) as Ho. destruct G as ((b & Rb) & Fd).
      eapply safe_impl; [|exact (safe_sync [] (wheld f) f b fuel Rb Ho)]. intros [f' st] R' (-> & Ef & b' & Rb' & Nm). cbn [fst] in *. cbn [safe]. unfold post. cbn [on shared]. exists (ObW f').
      split; [reflexivity|]. split; [cbn [good]; rewrite Ef; split; [eauto|exact Fd]|]. split; [split; [reflexivity|exact Nm]|]. unfold wheld. cbn [items]. rewrite Ef. reflexivity.
    - intros (p & -> & G & F). cbn [prog_of]. destruct p as [f|f|f].
      + apply safe_bind. unfold pdestroy. destruct (Z.leb_spec 0 (f_fd f)) as [Hf|Hf].
        * apply safe_bind. eapply safe_impl; [|exact (safe_close f fuel G)]. intros r R' (-> & _). cbn. auto.
        * cbn [safe items]. replace (0 <=? f_fd f)%Z with false by (symmetry; apply Z.leb_gt; lia). cbn. auto.
      + unfold psys. cbn [pbind safe]. right. exists true, []. split; [reflexivity|]. intros a. cbn. auto.
      + apply safe_bind. destruct f as [fd name|name|base len name]; cbn [pran_delete].
        * cbn [good] in G. rewrite (assert_fd fd G). unfold psys. cbn [plift pbind safe]. right. exists true, [(true, ISlot LFd)]. split; [reflexivity|]. intros a. left. exists true, []. split; [reflexivity|]. split; [reflexivity|]. cbn. auto.
        * cbn. auto.
        * unfold psys. cbn [pbind safe]. exists true, [(true, ISlot LMmap)]. split; [reflexivity|]. intros a. left. exists true, []. split; [reflexivity|]. split; [reflexivity|]. cbn. auto.
  Qed.
End Safe.
