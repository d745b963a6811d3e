(** PosixWritableProofs.v -- lemmas for PosixWritableProps.v. *)
From Coq Require Import List Arith NArith ZArith Lia Bool.
From Verif Require Import Outcome Heap Status StatusProofs MemEnv MemEnvMem PosixOs PosixWritable PosixWritableSpec.
Import ListNotations.
Local Open Scope outcome_scope.

(** ** Paths *)
Lemma rfind_none c l : rfind c l = None <-> ~ In c l.
Proof.
  induction l as [|x l IH]; cbn [rfind In]; [tauto|].
  destruct (rfind c l) as [i|].
  - split; [discriminate|]. intros H. exfalso. apply H. right. destruct IH as [_ IH]. destruct (in_dec N.eq_dec c l) as [Hi|Hi]; [exact Hi|].
    specialize (IH Hi). discriminate.
  - destruct (N.eqb_spec x c) as [->|Hn].
    + split; [discriminate|]. intros H. exfalso. auto.
    + destruct IH as [IH _]. specialize (IH eq_refl). split; [|reflexivity]. intros _ [H|H]; auto.
Qed.

Lemma rfind_some c l i : rfind c l = Some i -> i < length l /\ l = firstn i l ++ c :: skipn (i + 1) l /\ ~ In c (skipn (i + 1) l).
Proof.
  revert i. induction l as [|x l IH]; cbn [rfind]; intros i E; [discriminate|].
  destruct (rfind c l) as [j|] eqn:Ej.
  - injection E as <-. destruct (IH j eq_refl) as (H1 & H2 & H3). cbn [length firstn skipn Nat.add app].
    split; [lia|]. split; [f_equal; exact H2|exact H3].
  - destruct (N.eqb_spec x c) as [->|Hn]; [|discriminate]. injection E as <-. apply rfind_none in Ej.
    cbn [length firstn Nat.add app skipn]. split; [lia|]. split; [reflexivity|exact Ej].
Qed.

Lemma split_last c (a b a' b' : str) : ~ In c b -> ~ In c b' -> a ++ c :: b = a' ++ c :: b' -> a = a' /\ b = b'.
Proof.
  intros Hb Hb'. revert a'. induction a as [|x a IH]; intros a' E.
  - destruct a' as [|y a']; cbn [app] in E.
    + injection E as <-. auto.
    + injection E as -> E. exfalso. apply Hb. rewrite E. rewrite in_app_iff. cbn. auto.
  - destruct a' as [|y a']; cbn [app] in E.
    + injection E as -> E. exfalso. apply Hb'. rewrite <- E. rewrite in_app_iff. cbn. auto.
    + injection E as -> E. destruct (IH a' E) as [-> ->]. auto.
Qed.

Lemma rfind_at c a b : ~ In c b -> rfind c (a ++ c :: b) = Some (length a).
Proof.
  intros Hb. destruct (rfind c (a ++ c :: b)) as [i|] eqn:E.
  - apply rfind_some in E as (H1 & H2 & H3). apply split_last in H2 as [Ha Hb2]; [|auto|auto].
    f_equal. apply (f_equal (@length N)) in Ha. rewrite firstn_length_le in Ha by lia. lia.
  - apply rfind_none in E. exfalso. apply E. rewrite in_app_iff. cbn. auto.
Qed.

Lemma absent_ok c l i : rfind c l = Some i -> absent_from c l (i + 1) = true.
Proof.
  intros E. apply rfind_some in E as (_ & _ & H). unfold absent_from. apply rfind_none in H. now rewrite H.
Qed.

Lemma dirname_split dbg d b : ~ In slash b -> Dirname dbg (d ++ slash :: b) = Ret d.
Proof.
  intros H. unfold Dirname. rewrite (rfind_at _ _ _ H).
  assert (A := absent_ok _ _ _ (rfind_at slash d b H)). rewrite A. unfold assert_. rewrite andb_false_r. cbn [bind].
  rewrite firstn_app, Nat.sub_diag, firstn_all. cbn [firstn]. now rewrite app_nil_r.
Qed.
Lemma basename_split dbg d b : ~ In slash b -> Basename dbg (d ++ slash :: b) = Ret b.
Proof.
  intros H. unfold Basename. rewrite (rfind_at _ _ _ H).
  assert (A := absent_ok _ _ _ (rfind_at slash d b H)). rewrite A. unfold assert_. rewrite andb_false_r. cbn [bind].
  rewrite skipn_app, skipn_all2 by lia. replace (length d + 1 - length d) with 1 by lia. cbn [skipn app].
  rewrite app_length. cbn [length]. rewrite firstn_all2 by lia. reflexivity.
Qed.
Lemma dirname_none dbg p : ~ In slash p -> Dirname dbg p = Ret dot.
Proof. intros H. apply rfind_none in H. unfold Dirname. now rewrite H. Qed.
Lemma basename_none dbg p : ~ In slash p -> Basename dbg p = Ret p.
Proof. intros H. apply rfind_none in H. unfold Basename. now rewrite H. Qed.

Lemma path_cases p : ~ In slash p \/ exists d b, splits p d b.
Proof.
  destruct (rfind slash p) as [i|] eqn:E.
  - right. apply rfind_some in E as (_ & H & H2). exists (firstn i p), (skipn (i + 1) p). split; auto.
  - left. now apply rfind_none.
Qed.

Lemma str_eqb_eq a b : str_eqb a b = true <-> a = b.
Proof.
  revert b. induction a as [|x a IH]; intros [|y b]; cbn; try (split; [discriminate|discriminate]); [tauto|].
  rewrite andb_true_iff, N.eqb_eq, IH. split; [intros [-> ->]; auto|intros E; injection E; auto].
Qed.
Lemma starts_with_spec s x : starts_with s x = true <-> exists r, s = x ++ r.
Proof.
  unfold starts_with. rewrite andb_true_iff, Nat.leb_le, str_eqb_eq. split.
  - intros [_ E]. exists (skipn (length x) s). rewrite <- E at 1. symmetry. apply firstn_skipn.
  - intros (r & ->). rewrite app_length. split; [lia|]. rewrite firstn_app, Nat.sub_diag, firstn_all. cbn. now rewrite app_nil_r.
Qed.

Lemma manifest_no_slash : ~ In slash manifest_prefix.
Proof. cbn. unfold slash. intuition discriminate. Qed.

Lemma is_manifest_spec dbg p : exists b, IsManifest dbg p = Ret b /\ (b = true <-> names_manifest p).
Proof.
  destruct (path_cases p) as [Hn|(d & b & Hb & ->)]; unfold IsManifest.
  - rewrite (basename_none dbg p Hn). cbn [bind]. eexists. split; [reflexivity|]. rewrite starts_with_spec. split.
    + intros (r & ->). exists r. split; [|auto]. intros H. apply Hn. rewrite in_app_iff. auto.
    + intros (r & Hr & [->|(d & ->)]); [eauto|]. exfalso. apply Hn. rewrite in_app_iff. cbn [In]. auto.
  - rewrite (basename_split dbg d b Hb). cbn [bind]. eexists. split; [reflexivity|]. rewrite starts_with_spec. split.
    + intros (r & ->). exists r. split; [|right; eauto]. intros H. apply Hb. rewrite in_app_iff. auto.
    + intros (r & Hr & [E|(d' & E)]).
      * exfalso. assert (Hi : In slash (d ++ slash :: b)) by (rewrite in_app_iff; cbn; auto).
        rewrite E, in_app_iff in Hi. destruct Hi; [now apply manifest_no_slash|auto].
      * apply split_last in E as [_ ->]; [eauto|auto|]. rewrite in_app_iff. intros [H|H]; [now apply manifest_no_slash|auto].
Qed.

Lemma dirname_in dbg p : exists d, Dirname dbg p = Ret d /\ in_dir p d.
Proof.
  destruct (path_cases p) as [Hn|(d & b & Hb & ->)].
  - exists dot. split; [now apply dirname_none|]. left. auto.
  - exists d. split; [now apply dirname_split|]. right. exists b. split; auto.
Qed.
Lemma in_dir_fun p d d' : in_dir p d -> in_dir p d' -> d = d'.
Proof.
  intros [[H ->]|(b & Hb & ->)] [[H' ->]|(b' & Hb' & E)]; auto.
  - subst p. exfalso. apply H. rewrite in_app_iff. cbn. auto.
  - exfalso. apply H'. rewrite in_app_iff. cbn. auto.
  - apply split_last in E as [-> _]; auto.
Qed.

Lemma new_wfile_ok dbg B name fd : exists m d, new_wfile dbg B name fd = Ret (mk_wfile (repeat None B) 0 fd m name d) /\
  (m = true <-> names_manifest name) /\ in_dir name d.
Proof.
  destruct (is_manifest_spec dbg name) as (m & Em & Hm). destruct (dirname_in dbg name) as (d & Ed & Hd).
  exists m, d. unfold new_wfile. rewrite Em, Ed. cbn [bind]. auto.
Qed.

(** ** Subsequences *)
Lemma subseq_refl {A} (x : list A) : subseq x x.
Proof. induction x; [apply sub_nil|now apply sub_take]. Qed.
Lemma subseq_app {A} (x y x' y' : list A) : subseq x y -> subseq x' y' -> subseq (x ++ x') (y ++ y').
Proof. intros H H'. induction H; cbn [app]; [exact H'|now apply sub_skip|now apply sub_take]. Qed.
Lemma subseq_nil {A} (y : list A) : subseq [] y.
Proof. induction y; [apply sub_nil|now apply sub_skip]. Qed.
Lemma subseq_trans {A} (x y z : list A) : subseq x y -> subseq y z -> subseq x z.
Proof.
  intros H1 H2. revert x H1. induction H2 as [|a y z H2 IH|a y z H2 IH]; intros x H1; [exact H1|apply sub_skip; auto|].
  inversion H1; subst; [apply sub_skip|apply sub_take]; auto.
Qed.
Lemma subseq_firstn {A} k (x : list A) : subseq (firstn k x) x.
Proof. rewrite <- (firstn_skipn k x) at 2. rewrite <- (app_nil_r (firstn k x)) at 1. apply subseq_app; [apply subseq_refl|apply subseq_nil]. Qed.

(** ** Logs *)
Definition all_taken (l : log) : list N := concat (map taken l).
Lemma all_taken_app l l' : all_taken (l ++ l') = all_taken l ++ all_taken l'.
Proof. unfold all_taken. now rewrite map_app, concat_app. Qed.
Lemma closed_app fd l l' : closed fd (l ++ l') = closed fd l || closed fd l'.
Proof. apply existsb_app. Qed.
Lemma written_app fd l l' : written fd (l ++ l') = written fd l ++ (if closed fd l then [] else written fd l').
Proof.
  induction l as [|e l IH]; [reflexivity|]. cbn [app written closed existsb]. destruct (closes fd e); cbn [orb]; [reflexivity|].
  fold (closed fd l). rewrite IH. now rewrite app_assoc.
Qed.

(** Every event is a write to [fd]. *)
Definition only_writes (fd : Z) (l : log) : Prop := Forall (fun e => exists d, fst e = CWrite fd d) l.
Lemma only_writes_closed fd fd' l : only_writes fd l -> closed fd' l = false.
Proof.
  intros H. induction H as [|e l (d & He) H IH]; [reflexivity|]. cbn [closed existsb]. unfold closes at 1. rewrite He. exact IH.
Qed.
Lemma only_writes_written fd l : only_writes fd l -> written fd l = all_taken l.
Proof.
  intros H. induction H as [|e l (d & He) H IH]; [reflexivity|]. cbn [written]. unfold closes. rewrite He, Z.eqb_refl, IH. reflexivity.
Qed.
Definition log_ok (l : log) : Prop := Forall (fun e => answer_ok (fst e) (snd e)) l.
Lemma only_writes_neg fd l : only_writes fd l -> log_ok l -> (fd < 0)%Z -> all_taken l = [].
Proof.
  intros H. induction H as [|[c a] l (d & He) H IH]; intros Hk Hf; [reflexivity|]. inversion_clear Hk as [|? ? K1 K2].
  cbn [fst snd] in He, K1. subst c. unfold all_taken. cbn [map concat taken]. destruct K1 as [_ K1]. specialize (K1 Hf).
  replace (Z.to_nat (a_ret a)) with 0 by lia. cbn [firstn app]. apply IH; auto.
Qed.

Section Run.
  Variable dbg : bool.
  Variable B : nat.
  Variable strerror : Z -> str.
  Variable S : Type.
  Variable os : S -> syscall -> S * answer.
  Hypothesis OK : os_ok os.
  Notation sys := (sys os).
  Notation PosixError := (PosixError strerror).

  Lemma sys_log w c : w_log (fst (sys w c)) = w_log w ++ [(c, snd (sys w c))].
  Proof. reflexivity. Qed.
  Lemma sys_ok w c : answer_ok c (snd (sys w c)).
  Proof. apply OK. Qed.

  Lemma error_status ctx e : PosixError ctx e = status_of strerror (Some (ctx, e)).
  Proof. unfold PosixOs.PosixError, status_of, ENOENT. now destruct (e =? 2)%Z. Qed.
  Lemma error_not_ok ctx e : PosixError ctx e <> SOk.
  Proof. unfold PosixOs.PosixError. destruct (_ =? _)%Z; discriminate. Qed.

  (** What a stretch of writes does. *)
  Record writes_of (w : world S) (fd : Z) (name : str) (data : list N) (w' : world S) (st : status) (l : log) : Prop := {
    wo_log : w_log w' = w_log w ++ l;
    wo_only : only_writes fd l;
    wo_ok : log_ok l;
    wo_taken : exists k, all_taken l = firstn k data;
    wo_all : st = SOk -> all_taken l = data;
    wo_st : forall closing cur, st = status_of strerror (first_failure name closing cur l);
    wo_st2 : forall closing cur l2, st = SOk -> first_failure name closing cur (l ++ l2) = first_failure name closing cur l2;
    wo_st3 : forall closing cur l2, st <> SOk -> first_failure name closing cur (l ++ l2) = first_failure name closing cur l
  }.

  Lemma writes_nil w fd name : writes_of w fd name [] w SOk [].
  Proof.
    split; [now rewrite app_nil_r|constructor|constructor|exists 0; reflexivity|reflexivity|reflexivity|reflexivity|].
    intros ? ? ? H. now destruct H.
  Qed.

  Lemma write_unbuffered_ok fuel : forall w fd name data r, write_unbuffered strerror S os fuel w fd name data = r ->
    r = OutOfFuel \/ exists w' st l, r = Ret (w', st) /\ writes_of w fd name data w' st l.
  Proof.
    induction fuel as [|fuel IH]; intros w fd name data r Er.
    - destruct data as [|b data]; cbn [write_unbuffered] in Er; subst r; [right|auto].
      exists w, SOk, []. split; [reflexivity|]. apply writes_nil.
    - destruct data as [|b0 data0] eqn:Ed.
      { cbn [write_unbuffered] in Er. subst r. right. exists w, SOk, []. split; [reflexivity|]. apply writes_nil. }
      rewrite <- Ed in *. assert (Hne : data <> []) by (rewrite Ed; discriminate).
      assert (Er' : (let '(w, a) := sys w (CWrite fd data) in
            if (a_ret a <? 0)%Z then
              if (a_errno a =? EINTR)%Z then write_unbuffered strerror S os fuel w fd name data
              else Ret (w, PosixError name (a_errno a))
            else if (Z.of_nat (length data) <? a_ret a)%Z then UB
            else write_unbuffered strerror S os fuel w fd name (skipn (Z.to_nat (a_ret a)) data)) = r).
      { rewrite <- Er, Ed. reflexivity. }
      clear Er Ed b0 data0. pose proof (sys_ok w (CWrite fd data)) as K. pose proof (sys_log w (CWrite fd data)) as L.
      remember (sys w (CWrite fd data)) as wa eqn:Ewa. clear Ewa. destruct wa as [w1 a]. cbn [fst snd] in K, L.
      destruct (Z.ltb_spec (a_ret a) 0) as [Hneg|Hpos].
      + destruct (Z.eqb_spec (a_errno a) EINTR) as [He|He].
        * destruct (IH _ _ _ _ _ Er') as [->|(w' & st & l & -> & W)]; [auto|]. right.
          exists w', st, ((CWrite fd data, a) :: l). split; [reflexivity|]. destruct W.
          assert (T : all_taken ((CWrite fd data, a) :: l) = all_taken l).
          { unfold all_taken. cbn [map concat taken]. replace (Z.to_nat (a_ret a)) with 0 by lia. reflexivity. }
          assert (FF : forall closing cur l2, first_failure name closing cur (((CWrite fd data, a) :: l) ++ l2) = first_failure name closing cur (l ++ l2)).
          { intros. cbn [app first_failure]. rewrite He, Z.eqb_refl, andb_false_r. reflexivity. }
          constructor; rewrite ?T; auto.
          -- rewrite wo_log0, L, <- app_assoc. reflexivity.
          -- constructor; [exists data; reflexivity|auto].
          -- constructor; auto.
          -- intros. rewrite <- (app_nil_r (_ :: l)), FF, app_nil_r. auto.
          -- intros. rewrite FF. auto.
          -- intros. rewrite FF. rewrite <- (app_nil_r (_ :: l)), FF, app_nil_r. auto.
        * subst r. right. exists w1, (PosixError name (a_errno a)), [(CWrite fd data, a)]. split; [reflexivity|].
          assert (FF : forall closing cur l2, first_failure name closing cur ((CWrite fd data, a) :: l2) = Some (name, a_errno a)).
          { intros. cbn [first_failure]. apply Z.ltb_lt in Hneg. rewrite Hneg. apply Z.eqb_neq in He. now rewrite He. }
          constructor; auto.
          -- constructor; [exists data; reflexivity|constructor].
          -- constructor; [auto|constructor].
          -- exists 0. unfold all_taken. cbn [map concat taken]. replace (Z.to_nat (a_ret a)) with 0 by lia. reflexivity.
          -- intros H. now apply error_not_ok in H.
          -- intros. rewrite FF. apply error_status.
          -- intros ? ? ? H. now apply error_not_ok in H.
          -- intros. cbn [app]. now rewrite !FF.
      + pose proof K as K0. destruct K as [K _]. destruct (Z.ltb_spec (Z.of_nat (length data)) (a_ret a)) as [Hbig|_]; [lia|].
        destruct (IH _ _ _ _ _ Er') as [->|(w' & st & l & -> & W)]; [auto|]. right.
        exists w', st, ((CWrite fd data, a) :: l). split; [reflexivity|]. destruct W.
        assert (T : all_taken ((CWrite fd data, a) :: l) = firstn (Z.to_nat (a_ret a)) data ++ all_taken l) by reflexivity.
        assert (FF : forall closing cur l2, first_failure name closing cur (((CWrite fd data, a) :: l) ++ l2) = first_failure name closing cur (l ++ l2)).
        { intros. cbn [app first_failure]. destruct (Z.ltb_spec (a_ret a) 0); [lia|]. reflexivity. }
        constructor.
        * rewrite wo_log0, L, <- app_assoc. reflexivity.
        * constructor; [exists data; reflexivity|auto].
        * constructor; auto.
        * destruct wo_taken0 as (k & Hk). exists (Z.to_nat (a_ret a) + k). rewrite T, Hk.
          rewrite <- (firstn_skipn (Z.to_nat (a_ret a)) data) at 3. rewrite firstn_app.
          rewrite firstn_length_le by lia. rewrite firstn_firstn. f_equal; [f_equal; lia|f_equal; lia].
        * intros H. rewrite T, wo_all0 by auto. apply firstn_skipn.
        * intros. rewrite <- (app_nil_r (_ :: l)), FF, app_nil_r. auto.
        * intros. rewrite FF. auto.
        * intros. rewrite FF. rewrite <- (app_nil_r (_ :: l)), FF, app_nil_r. auto.
  Qed.

  (** ** The buffer *)
  Definition brep (f : wfile) (b : list N) : Prop :=
    length (f_buf f) = B /\ f_pos f = length b /\ length b <= B /\ firstn (length b) (f_buf f) = map Some b.

  Lemma brep_empty f buf : length buf = B -> brep (set_buf f buf 0) [].
  Proof. intros H. repeat split; cbn; auto; lia. Qed.

  Lemma flush_buffer_ok fuel w f b r : brep f b -> flush_buffer strerror S os fuel w f = r ->
    r = OutOfFuel \/ exists w' st l, r = Ret (w', set_buf f (f_buf f) 0, st) /\ writes_of w (f_fd f) (f_name f) b w' st l.
  Proof.
    intros (H1 & H2 & H3 & H4) Er. unfold flush_buffer in Er.
    rewrite H2, (bread_n_firstn (f_buf f) 0 (length b) b) in Er by (cbn [skipn]; auto). cbn [bind] in Er.
    destruct (write_unbuffered_ok fuel w (f_fd f) (f_name f) b _ eq_refl) as [E|(w' & st & l & E & W)]; rewrite E in Er; cbn [bind] in Er.
    - auto.
    - right. exists w', st, l. auto.
  Qed.

  Lemma put_brep f b buf d : brep f b -> length b + length d <= B -> bput_bytes (f_buf f) (length b) d = Ret buf ->
    brep (set_buf f buf (length b + length d)) (b ++ d).
  Proof.
    intros (H1 & H2 & H3 & H4) Hl E. rewrite bput_bytes_mid in E by lia. injection E as <-.
    repeat split; cbn [set_buf f_buf f_pos].
    - rewrite !app_length, firstn_length_le, map_length, skipn_length by lia. lia.
    - now rewrite app_length.
    - now rewrite app_length.
    - rewrite app_length, map_app, app_assoc, firstn_app.
      rewrite !app_length, firstn_length_le, map_length by lia. rewrite Nat.sub_diag. cbn [firstn]. rewrite app_nil_r.
      rewrite firstn_all2.
      + now rewrite H4.
      + rewrite app_length, firstn_length_le, map_length by lia. lia.
  Qed.

  Definition dirsync (f : wfile) (ld : log) (good : bool) : Prop :=
    (f_manifest f = false /\ ld = [] /\ good = true) \/
    (f_manifest f = true /\
      ((exists a, ld = [(COpen (f_dir f) RdOnly, a)] /\ (a_ret a < 0)%Z /\ good = false) \/
       (exists a a1 a2, ld = [(COpen (f_dir f) RdOnly, a); (CFsync (a_ret a), a1); (CClose (a_ret a), a2)] /\
          (0 <= a_ret a)%Z /\ good = (a_ret a1 =? 0)%Z))).

  Definition shape (f : wfile) (o : wop) (st : status) (l : log) : Prop :=
    match o with
    | OpAppend _ | OpFlush => only_writes (f_fd f) l
    | OpClose => exists lw a, l = lw ++ [(CClose (f_fd f), a)] /\ only_writes (f_fd f) lw
    | OpSync =>
        exists ld lr good, l = ld ++ lr /\ dirsync f ld good /\
          ((good = false /\ lr = [] /\ st <> SOk) \/
           (good = true /\ exists lw lt, lr = lw ++ lt /\ only_writes (f_fd f) lw /\
              ((lt = [] /\ st <> SOk) \/ exists a, lt = [(CFsync (f_fd f), a)] /\ (st = SOk <-> a_ret a = 0%Z))))
    end.
  Definition is_close (o : wop) : bool := match o with OpClose => true | _ => false end.

  Record op_ok (w : world S) (f : wfile) (b : list N) (o : wop) (w' : world S) (f' : wfile) (st : status) (l : log) (b' : list N) : Prop := {
    so_log : w_log w' = w_log w ++ l;
    so_lok : log_ok l;
    so_name : f_name f' = f_name f /\ f_dir f' = f_dir f /\ f_manifest f' = f_manifest f;
    so_fd : f_fd f' = (if is_close o then (-1)%Z else f_fd f);
    so_brep : brep f' b';
    so_sub : subseq (all_taken l ++ b') (b ++ op_data o);
    so_all : st = SOk -> all_taken l ++ b' = b ++ op_data o /\ (flushes o -> b' = []);
    so_st : st = status_of strerror (first_failure (f_name f) (is_close o) (f_name f) l);
    so_shape : shape f o st l
  }.

  Lemma append_ok fuel w f b d r : brep f b -> append B strerror S os fuel w f d = r ->
    r = OutOfFuel \/ exists w' f' st l b', r = Ret (w', f', st) /\ op_ok w f b (OpAppend d) w' f' st l b'.
  Proof.
    intros R Er. pose proof R as (H1 & H2 & H3 & H4). unfold append in Er. rewrite H2 in Er.
    replace (B <? length b) with false in Er by (symmetry; apply Nat.ltb_ge; lia).
    set (k := Nat.min (length d) (B - length b)) in *.
    assert (Lk : length (firstn k d) = k) by (apply firstn_length_le; unfold k; lia).
    destruct (bput_bytes (f_buf f) (length b) (firstn k d)) as [buf| | |] eqn:Eb;
      [|rewrite bput_bytes_mid in Eb by (rewrite Lk, H1; unfold k; lia); discriminate..].
    cbn [bind] in Er. assert (R1 := put_brep f b buf (firstn k d) R). rewrite Lk in R1.
    specialize (R1 ltac:(unfold k; lia) Eb). set (f1 := set_buf f buf (length b + k)) in *.
    destruct (skipn k d) as [|x rest] eqn:Es.
    - right. exists w, f1, SOk, [], (b ++ d). split; [auto|].
      assert (Ed : firstn k d = d) by (rewrite <- (firstn_skipn k d) at 2; rewrite Es, app_nil_r; reflexivity).
      rewrite Ed in R1. split; [now rewrite app_nil_r|constructor|auto|auto|exact R1|apply subseq_refl| |reflexivity|constructor].
      intros _. split; [reflexivity|]. intros [].
    - rewrite <- Es in *.
      destruct (flush_buffer_ok fuel w f1 (b ++ firstn k d) _ R1 eq_refl) as [E|(w1 & st & l & E & W)]; rewrite E in Er; cbn [bind] in Er; [auto|].
      assert (Lb : length buf = B) by exact (proj1 R1).
      assert (E0 := brep_empty f1 buf Lb).
      assert (Bd : b ++ d = (b ++ firstn k d) ++ skipn k d) by (rewrite <- app_assoc, firstn_skipn; reflexivity).
      destruct st as [|kd m1 m2].
      + destruct (Nat.ltb_spec (length (skipn k d)) B) as [Hlt|Hge].
        * cbn [set_buf f_buf f1] in Er.
          destruct (bput_bytes buf 0 (skipn k d)) as [buf2| | |] eqn:Eb2; [|rewrite bput_bytes_mid in Eb2 by lia; discriminate..].
          cbn [bind] in Er. assert (R2 := put_brep (set_buf f1 buf 0) [] buf2 (skipn k d) E0 ltac:(cbn [length]; lia) Eb2).
          cbn [length Nat.add app] in R2. right. eexists w1, _, SOk, l, (skipn k d). split; [symmetry; exact Er|]. destruct W.
          split; [auto|auto|auto|auto|exact R2| | |auto|auto].
          -- cbn [op_data]. rewrite wo_all0, Bd by reflexivity. apply subseq_refl.
          -- intros _. cbn [op_data]. rewrite wo_all0, Bd by reflexivity. split; [reflexivity|]. intros [].
        * destruct (write_unbuffered_ok fuel w1 (f_fd f) (f_name f) (skipn k d) _ eq_refl) as [E2|(w2 & st2 & l2 & E2 & W2)].
          { cbn [set_buf f_fd f_name f1] in Er. rewrite E2 in Er. cbn [bind] in Er. auto. }
          cbn [set_buf f_fd f_name f1] in Er. rewrite E2 in Er. cbn [bind] in Er. right.
          eexists w2, _, st2, (l ++ l2), []. split; [symmetry; exact Er|].
          pose proof (wo_st2 _ _ _ _ _ _ _ W) as Wst. pose proof (wo_st _ _ _ _ _ _ _ W2) as Wst2. destruct W, W2.
          split; [rewrite wo_log1, wo_log0, app_assoc; reflexivity|apply Forall_app; auto|auto|auto|exact E0| | | |].
          -- cbn [op_data]. rewrite app_nil_r, all_taken_app, wo_all0, Bd by reflexivity. apply subseq_app; [apply subseq_refl|].
             destruct wo_taken1 as (k2 & ->). apply subseq_firstn.
          -- intros ->. cbn [op_data]. rewrite app_nil_r, all_taken_app, wo_all0, wo_all1, Bd by reflexivity. split; [reflexivity|]. intros [].
          -- cbn [is_close]. change (f_name f1) with (f_name f) in Wst. rewrite Wst by reflexivity. apply Wst2.
          -- apply Forall_app; auto.
      + right. eexists w1, _, _, l, []. split; [symmetry; exact Er|]. destruct W.
        split; [auto|auto|auto|auto|exact E0| |discriminate|apply wo_st0|auto].
        cbn [op_data]. rewrite app_nil_r, Bd, <- (app_nil_r (all_taken l)). apply subseq_app; [|apply subseq_nil].
        destruct wo_taken0 as (k2 & ->). apply subseq_firstn.
  Qed.

  Lemma close_ok fuel w f b r : brep f b -> close strerror S os fuel w f = r ->
    r = OutOfFuel \/ exists w' f' st l b', r = Ret (w', f', st) /\ op_ok w f b OpClose w' f' st l b'.
  Proof.
    intros R Er. unfold close in Er.
    destruct (flush_buffer_ok fuel w f b _ R eq_refl) as [E|(w1 & st & l & E & W)]; rewrite E in Er; cbn [bind] in Er; [auto|]. right.
    change (f_fd (set_buf f (f_buf f) 0)) with (f_fd f) in Er. change (f_name (set_buf f (f_buf f) 0)) with (f_name f) in Er.
    pose proof (sys_ok w1 (CClose (f_fd f))) as K. pose proof (sys_log w1 (CClose (f_fd f))) as L.
    remember (sys w1 (CClose (f_fd f))) as wa eqn:Ewa. clear Ewa. destruct wa as [w2 a]. cbn [fst snd] in K, L.
    eexists w2, _, _, (l ++ [(CClose (f_fd f), a)]), []. split; [symmetry; exact Er|].
    pose proof (wo_st2 _ _ _ _ _ _ _ W true (f_name f) [(CClose (f_fd f), a)]) as W2.
    pose proof (wo_st3 _ _ _ _ _ _ _ W true (f_name f) [(CClose (f_fd f), a)]) as W3.
    pose proof (wo_st _ _ _ _ _ _ _ W true (f_name f)) as W1. pose proof (wo_taken _ _ _ _ _ _ _ W) as (k & Hk).
    pose proof (wo_all _ _ _ _ _ _ _ W) as Ha. pose proof (wo_only _ _ _ _ _ _ _ W) as Ho.
    pose proof (wo_log _ _ _ _ _ _ _ W) as Hl. pose proof (wo_ok _ _ _ _ _ _ _ W) as Hko. clear W.
    assert (T : all_taken (l ++ [(CClose (f_fd f), a)]) = all_taken l) by (rewrite all_taken_app; cbn; apply app_nil_r).
    split.
    - rewrite L, Hl, <- app_assoc. reflexivity.
    - apply Forall_app. split; [auto|]. constructor; [exact K|constructor].
    - auto.
    - reflexivity.
    - unfold set_fd. split; [exact (proj1 R)|]. repeat split; cbn; lia.
    - rewrite T, app_nil_r. cbn [op_data]. rewrite app_nil_r, Hk. apply subseq_firstn.
    - intros Hs. rewrite T, app_nil_r. cbn [op_data]. rewrite app_nil_r. split; [|auto]. apply Ha. destruct st; [reflexivity|discriminate].
    - cbn [is_close]. destruct st as [|kd m1 m2].
      + rewrite W2 by reflexivity. cbn [first_failure andb]. destruct (a_ret a <? 0)%Z; [apply error_status|reflexivity].
      + rewrite W3 by discriminate. exact W1.
    - exists l, a. auto.
  Qed.

  Lemma flush_ok fuel w f b r : brep f b -> flush strerror S os fuel w f = r ->
    r = OutOfFuel \/ exists w' f' st l b', r = Ret (w', f', st) /\ op_ok w f b OpFlush w' f' st l b'.
  Proof.
    intros R Er. unfold flush in Er.
    destruct (flush_buffer_ok fuel w f b _ R eq_refl) as [E|(w1 & st & l & E & W)]; rewrite E in Er; [auto|]. right.
    eexists w1, _, st, l, []. split; [symmetry; exact Er|]. pose proof (wo_st _ _ _ _ _ _ _ W) as Ws. destruct W. split; auto.
    - apply brep_empty. exact (proj1 R).
    - cbn [op_data]. rewrite !app_nil_r. destruct wo_taken0 as (k & ->). apply subseq_firstn.
    - intros Hs. cbn [op_data]. rewrite !app_nil_r. auto.
  Qed.

  Lemma sync_dir_ok w f w' st : sync_dir_if_manifest strerror S os w f = (w', st) ->
    exists ld good, w_log w' = w_log w ++ ld /\ log_ok ld /\ dirsync f ld good /\ all_taken ld = [] /\
      (good = true <-> st = SOk) /\
      (good = true -> forall l, first_failure (f_name f) false (f_name f) (ld ++ l) = first_failure (f_name f) false (f_name f) l) /\
      (good = false -> st = status_of strerror (first_failure (f_name f) false (f_name f) ld)).
  Proof.
    unfold sync_dir_if_manifest. destruct (f_manifest f) eqn:Em; cbn [negb].
    2:{ intros E. injection E as <- <-. exists [], true. rewrite app_nil_r.
        split; [reflexivity|]. split; [constructor|]. split; [left; auto|]. split; [reflexivity|]. split; [tauto|]. split; [reflexivity|discriminate]. }
    pose proof (sys_ok w (COpen (f_dir f) RdOnly)) as K. pose proof (sys_log w (COpen (f_dir f) RdOnly)) as L.
    remember (sys w (COpen (f_dir f) RdOnly)) as wa eqn:Ewa. clear Ewa. destruct wa as [w1 a]. cbn [fst snd] in K, L.
    destruct (Z.ltb_spec (a_ret a) 0) as [Hneg|Hpos].
    - intros E. injection E as <- <-. exists [(COpen (f_dir f) RdOnly, a)], false.
      split; [exact L|]. split; [constructor; [exact K|constructor]|]. split; [right; split; [auto|]; left; exists a; auto|].
      split; [reflexivity|]. split; [split; [discriminate|intros H; now apply error_not_ok in H]|]. split; [discriminate|].
      intros _. cbn [first_failure]. apply Z.ltb_lt in Hneg. rewrite Hneg. apply error_status.
    - unfold sync_fd.
      pose proof (sys_ok w1 (CFsync (a_ret a))) as K1. pose proof (sys_log w1 (CFsync (a_ret a))) as L1.
      remember (sys w1 (CFsync (a_ret a))) as wa eqn:Ewa. clear Ewa. destruct wa as [w2 a1]. cbn [fst snd] in K1, L1.
      pose proof (sys_ok w2 (CClose (a_ret a))) as K2. pose proof (sys_log w2 (CClose (a_ret a))) as L2.
      remember (sys w2 (CClose (a_ret a))) as wa eqn:Ewa. clear Ewa. destruct wa as [w3 a2]. cbn [fst snd] in K2, L2.
      intros E. injection E as <- <-.
      exists [(COpen (f_dir f) RdOnly, a); (CFsync (a_ret a), a1); (CClose (a_ret a), a2)], (a_ret a1 =? 0)%Z.
      split; [rewrite L2, L1, L, <- !app_assoc; reflexivity|].
      split; [constructor; [exact K|]; constructor; [exact K1|]; constructor; [exact K2|constructor]|].
      split; [right; split; [auto|]; right; exists a, a1, a2; auto|].
      split; [reflexivity|].
      split; [destruct (a_ret a1 =? 0)%Z; split; try tauto; try discriminate; intros H; now apply error_not_ok in H|].
      assert (P : (a_ret a <? 0)%Z = false) by (apply Z.ltb_ge; lia).
      split; intros Hg; cbn [app first_failure andb]; rewrite P; [intros l; now rewrite Hg|]. rewrite Hg. apply error_status.
  Qed.

  Lemma sync_ok fuel w f b r : brep f b -> sync strerror S os fuel w f = r ->
    r = OutOfFuel \/ exists w' f' st l b', r = Ret (w', f', st) /\ op_ok w f b OpSync w' f' st l b'.
  Proof.
    intros R Er. unfold sync in Er.
    destruct (sync_dir_if_manifest strerror S os w f) as [w1 st0] eqn:E0.
    destruct (sync_dir_ok _ _ _ _ E0) as (ld & good & L0 & K0 & D0 & T0 & G0 & G1 & G2). clear E0.
    destruct st0 as [|kd m1 m2].
    - assert (Hg : good = true) by now apply G0. specialize (G1 Hg).
      destruct (flush_buffer_ok fuel w1 f b _ R eq_refl) as [E|(w2 & st & l & E & W)]; rewrite E in Er; cbn [bind] in Er; [auto|]. right.
      pose proof (wo_st2 _ _ _ _ _ _ _ W false (f_name f)) as W2.
      pose proof (wo_st _ _ _ _ _ _ _ W false (f_name f)) as W1. pose proof (wo_taken _ _ _ _ _ _ _ W) as (k & Hk).
      pose proof (wo_all _ _ _ _ _ _ _ W) as Ha. pose proof (wo_only _ _ _ _ _ _ _ W) as Ho.
      pose proof (wo_log _ _ _ _ _ _ _ W) as Hl. pose proof (wo_ok _ _ _ _ _ _ _ W) as Hko. clear W.
      assert (Be := brep_empty f (f_buf f) (proj1 R)).
      destruct st as [|kd m1 m2].
      + unfold sync_fd in Er. change (f_fd (set_buf f (f_buf f) 0)) with (f_fd f) in Er. change (f_name (set_buf f (f_buf f) 0)) with (f_name f) in Er.
        pose proof (sys_ok w2 (CFsync (f_fd f))) as K1. pose proof (sys_log w2 (CFsync (f_fd f))) as L1.
        remember (sys w2 (CFsync (f_fd f))) as wa eqn:Ewa. clear Ewa. destruct wa as [w3 a]. cbn [fst snd] in K1, L1.
        eexists w3, _, _, (ld ++ l ++ [(CFsync (f_fd f), a)]), []. split; [symmetry; exact Er|].
        assert (T : all_taken (ld ++ l ++ [(CFsync (f_fd f), a)]) = all_taken l).
        { rewrite !all_taken_app, T0. cbn. apply app_nil_r. }
        split.
        * rewrite L1, Hl, L0, <- !app_assoc. reflexivity.
        * apply Forall_app. split; [auto|]. apply Forall_app. split; [auto|]. constructor; [exact K1|constructor].
        * auto.
        * reflexivity.
        * exact Be.
        * rewrite T. cbn [op_data]. rewrite !app_nil_r, Hk. apply subseq_firstn.
        * intros _. rewrite T. cbn [op_data]. rewrite !app_nil_r. auto.
        * cbn [is_close]. rewrite G1, W2 by reflexivity. cbn [first_failure]. destruct (a_ret a =? 0)%Z; [reflexivity|apply error_status].
        * exists ld, (l ++ [(CFsync (f_fd f), a)]), good. split; [reflexivity|]. split; [exact D0|]. right. split; [exact Hg|].
          exists l, [(CFsync (f_fd f), a)]. split; [reflexivity|]. split; [exact Ho|]. right. exists a. split; [reflexivity|].
          destruct (Z.eqb_spec (a_ret a) 0) as [Hz|Hz]; split; try tauto; intros H; [now apply error_not_ok in H].
      + eexists w2, _, _, (ld ++ l), []. split; [symmetry; exact Er|].
        assert (T : all_taken (ld ++ l) = all_taken l) by (rewrite all_taken_app, T0; reflexivity).
        split.
        * rewrite Hl, L0, <- app_assoc. reflexivity.
        * apply Forall_app. auto.
        * auto.
        * reflexivity.
        * exact Be.
        * rewrite T. cbn [op_data]. rewrite !app_nil_r, Hk. apply subseq_firstn.
        * discriminate.
        * cbn [is_close]. rewrite G1. exact W1.
        * exists ld, l, good. split; [reflexivity|]. split; [exact D0|]. right. split; [exact Hg|].
          exists l, []. split; [now rewrite app_nil_r|]. split; [exact Ho|]. left. split; [reflexivity|discriminate].
    - right. assert (Hg : good = false) by (destruct good; [destruct G0 as [G0 _]; specialize (G0 eq_refl); discriminate|reflexivity]).
      eexists w1, f, _, ld, b. split; [symmetry; exact Er|]. split; auto.
      + rewrite T0. cbn [app op_data]. rewrite app_nil_r. apply subseq_refl.
      + discriminate.
      + exists ld, [], good. split; [now rewrite app_nil_r|]. split; [exact D0|]. left. split; [exact Hg|]. split; [reflexivity|discriminate].
  Qed.

  Lemma wstep_ok fuel w f b o r : brep f b -> wstep B strerror S os fuel w f o = r ->
    r = OutOfFuel \/ exists w' f' st l b', r = Ret (w', f', st) /\ op_ok w f b o w' f' st l b'.
  Proof.
    intros R. destruct o as [d| | |]; cbn [wstep]; [apply append_ok|apply flush_ok|apply sync_ok|apply close_ok]; exact R.
  Qed.

  (** ** The descriptor *)
  Definition fd_inv (fd : Z) (f : wfile) (L : log) : Prop :=
    (f_fd f = fd /\ closed fd L = false) \/ (f_fd f = (-1)%Z /\ closed fd L = true).

  Lemma exclusive_app fd L l : exclusive fd (L ++ l) -> exclusive fd L.
  Proof. intros X l1 p fl a l2 E. apply (X l1 p fl a (l2 ++ l)). rewrite E, <- app_assoc. reflexivity. Qed.

  Lemma dirsync_clean fd f ld good L : dirsync f ld good -> exclusive fd (L ++ ld) -> closed fd L = false ->
    closed fd ld = false /\ written fd ld = [].
  Proof.
    intros [(_ & -> & _)|(_ & [(a & -> & _)|(a & a1 & a2 & -> & _)])] X C; cbn; auto.
    assert (Hf : a_ret a <> fd) by (eapply X; [reflexivity|exact C]).
    unfold closes. cbn [fst]. apply Z.eqb_neq in Hf. rewrite Hf. auto.
  Qed.

  Lemma step_written fd w f b o w' f' st l b' L : (0 <= fd)%Z -> fd_inv fd f L -> exclusive fd (L ++ l) ->
    op_ok w f b o w' f' st l b' -> fd_inv fd f' (L ++ l) /\ written fd (L ++ l) = written fd L ++ all_taken l.
  Proof.
    intros Hfd I X Q. pose proof (so_shape _ _ _ _ _ _ _ _ _ Q) as Sh. pose proof (so_fd _ _ _ _ _ _ _ _ _ Q) as Ef.
    pose proof (so_lok _ _ _ _ _ _ _ _ _ Q) as Lk. unfold fd_inv. rewrite Ef, closed_app, written_app.
    destruct I as [(I1 & I2)|(I1 & I2)]; rewrite I2; cbn [orb].
    - rewrite <- I1 in *. destruct o as [d| | |]; cbn [shape is_close] in Sh |- *.
      + rewrite (only_writes_closed _ _ _ Sh), (only_writes_written _ _ Sh). auto.
      + rewrite (only_writes_closed _ _ _ Sh), (only_writes_written _ _ Sh). auto.
      + destruct Sh as (ld & lr & good & -> & D & C).
        destruct (dirsync_clean (f_fd f) f ld good L D) as (Cd & Wd); [|exact I2|].
        { rewrite app_assoc in X. now apply exclusive_app in X. }
        assert (Td : all_taken ld = []).
        { destruct D as [(_ & -> & _)|(_ & [(a & -> & _)|(a & a1 & a2 & -> & _)])]; reflexivity. }
        rewrite closed_app, written_app, all_taken_app, Cd, Wd, Td. cbn [orb app].
        destruct C as [(_ & -> & _)|(_ & lw & lt & -> & Ho & C)]; [auto|].
        rewrite closed_app, written_app, all_taken_app, (only_writes_closed _ _ _ Ho), (only_writes_written _ _ Ho). cbn [orb].
        destruct C as [(-> & _)|(a & -> & _)]; cbn; auto.
      + destruct Sh as (lw & a & -> & Ho).
        rewrite closed_app, written_app, all_taken_app, (only_writes_closed _ _ _ Ho), (only_writes_written _ _ Ho). cbn.
        unfold closes. cbn [fst]. rewrite Z.eqb_refl. auto.
    - split; [right; split; [destruct o; cbn; auto|reflexivity]|]. f_equal. symmetry.
      destruct o as [d| | |]; cbn [shape] in Sh.
      + apply (only_writes_neg (f_fd f)); auto. lia.
      + apply (only_writes_neg (f_fd f)); auto. lia.
      + destruct Sh as (ld & lr & good & -> & D & C). apply Forall_app in Lk as (Lk1 & Lk2).
        assert (Td : all_taken ld = []).
        { destruct D as [(_ & -> & _)|(_ & [(a & -> & _)|(a & a1 & a2 & -> & _)])]; reflexivity. }
        rewrite all_taken_app, Td. cbn [app]. destruct C as [(_ & -> & _)|(_ & lw & lt & -> & Ho & C)]; [reflexivity|].
        apply Forall_app in Lk2 as (Lk2 & _). rewrite all_taken_app, (only_writes_neg (f_fd f) lw) by (auto; lia).
        destruct C as [(-> & _)|(a & -> & _)]; reflexivity.
      + destruct Sh as (lw & a & -> & Ho). apply Forall_app in Lk as (Lk & _).
        rewrite all_taken_app, (only_writes_neg (f_fd f) lw) by (auto; lia). reflexivity.
  Qed.

  Lemma wrun_ok fuel : forall ops w f b r, brep f b -> wrun B strerror S os fuel w f ops = r ->
    r = OutOfFuel \/ exists w' f' sts l, r = Ret (w', f', sts) /\ w_log w' = w_log w ++ l /\ log_ok l /\ length sts = length ops /\
      f_name f' = f_name f /\ f_dir f' = f_dir f /\ f_manifest f' = f_manifest f /\
      exists b', brep f' b' /\
      forall fd L, (0 <= fd)%Z -> fd_inv fd f L -> exclusive fd (L ++ l) ->
        fd_inv fd f' (L ++ l) /\
        exists D, written fd (L ++ l) = written fd L ++ D /\
          subseq (D ++ b') (b ++ appended ops) /\
          (Forall (fun st => st = SOk) sts -> D ++ b' = b ++ appended ops).
  Proof.
    induction ops as [|o ops IH]; intros w f b r R Er; cbn [wrun] in Er.
    - right. exists w, f, [], []. rewrite app_nil_r. split; [auto|]. split; [reflexivity|]. split; [constructor|]. do 4 (split; [reflexivity|]).
      exists b. split; [exact R|]. intros fd L Hfd I X. rewrite app_nil_r. split; [exact I|]. exists []. rewrite app_nil_r.
      split; [reflexivity|]. cbn. rewrite app_nil_r. split; [apply subseq_refl|reflexivity].
    - destruct (wstep_ok fuel w f b o _ R eq_refl) as [E|(w1 & f1 & st & l & b1 & E & Q)]; rewrite E in Er; cbn [bind] in Er; [auto|].
      pose proof (so_brep _ _ _ _ _ _ _ _ _ Q) as R1. pose proof (so_log _ _ _ _ _ _ _ _ _ Q) as L1. pose proof (so_lok _ _ _ _ _ _ _ _ _ Q) as K1.
      pose proof (so_name _ _ _ _ _ _ _ _ _ Q) as (N1 & N2 & N3).
      destruct (IH w1 f1 b1 _ R1 eq_refl) as [E2|(w2 & f2 & sts & l2 & E2 & L2 & K2 & Hn & M1 & M2 & M3 & b2 & R2 & P)]; rewrite E2 in Er; cbn [bind] in Er; [auto|].
      right. exists w2, f2, (st :: sts), (l ++ l2). split; [auto|]. split; [rewrite L2, L1, <- app_assoc; reflexivity|].
      split; [apply Forall_app; auto|]. split; [cbn; now rewrite Hn|]. split; [congruence|]. split; [congruence|]. split; [congruence|].
      exists b2. split; [exact R2|]. intros fd L Hfd I X. rewrite app_assoc in X |- *.
      destruct (step_written fd w f b o w1 f1 st l b1 L Hfd I (exclusive_app _ _ _ X) Q) as (I1 & W1).
      destruct (P fd (L ++ l) Hfd I1 X) as (I2 & D & W2 & Sb & Al). split; [exact I2|].
      exists (all_taken l ++ D). split; [rewrite W2, W1, <- app_assoc; reflexivity|].
      unfold appended. cbn [map concat]. fold (appended ops). split.
      + apply (subseq_trans _ (all_taken l ++ b1 ++ appended ops)).
        * rewrite <- app_assoc. apply subseq_app; [apply subseq_refl|exact Sb].
        * rewrite !app_assoc. apply subseq_app; [exact (so_sub _ _ _ _ _ _ _ _ _ Q)|apply subseq_refl].
      + intros Hs. inversion Hs as [|? ? H1 H2]; subst. rewrite <- app_assoc, Al by auto.
        rewrite !app_assoc. f_equal. now apply (so_all _ _ _ _ _ _ _ _ _ Q).
  Qed.

  Lemma wrun_app fuel ops o : forall w f r, wrun B strerror S os fuel w f (ops ++ [o]) = Ret r ->
    exists w1 f1 sts st, wrun B strerror S os fuel w f ops = Ret (w1, f1, sts) /\
      wstep B strerror S os fuel w1 f1 o = Ret (fst (fst r), snd (fst r), st) /\ snd r = sts ++ [st].
  Proof.
    induction ops as [|o1 ops IH]; intros w f r E; cbn [app wrun] in E.
    - destruct (wstep B strerror S os fuel w f o) as [[[w1 f1] st]| | |] eqn:Es; cbn [bind] in E; try discriminate.
      injection E as <-. cbn [fst snd]. exists w, f, [], st. auto.
    - destruct (wstep B strerror S os fuel w f o1) as [[[w1 f1] st]| | |] eqn:Es; cbn [bind] in E; try discriminate.
      destruct (wrun B strerror S os fuel w1 f1 (ops ++ [o])) as [[[w2 f2] sts]| | |] eqn:Er; cbn [bind] in E; try discriminate.
      injection E as <-. destruct (IH _ _ _ Er) as (w3 & f3 & sts3 & st3 & E3 & E4 & E5). cbn [fst snd] in *.
      exists w3, f3, (st :: sts3), st3. cbn [wrun]. rewrite Es. cbn [bind]. rewrite E3. cbn [bind]. rewrite E5. auto.
  Qed.

  (** ** Termination *)
  Lemma write_terminates K fd name : progressing os K -> forall n data, length data <= n ->
    forall fuel w, K * n <= fuel -> write_unbuffered strerror S os fuel w fd name data <> OutOfFuel.
  Proof.
    intros P. induction n as [|n IH]; intros data Hn.
    - destruct data as [|x data]; [|cbn in Hn; lia]. intros [|fuel] w Hf; discriminate.
    - assert (A : forall k, data <> [] -> forall fuel w, stalls os k (w_st w) fd data = false -> k + K * n <= fuel ->
                   write_unbuffered strerror S os fuel w fd name data <> OutOfFuel).
      { induction k as [|k IHk]; intros Hd fuel w Hs Hf; [discriminate|]. destruct fuel as [|fuel]; [lia|].
        cbn [stalls] in Hs. destruct data as [|x data0] eqn:Ed; [contradiction|]. rewrite <- Ed in *. cbn [write_unbuffered].
        rewrite Ed at 1. cbv beta iota. unfold PosixOs.sys. cbv zeta beta iota.
        remember (os (w_st w) (CWrite fd data)) as r eqn:Er.
        assert (Er2 : os (w_st w) (CWrite fd data) = r) by auto. clear Er.
        match goal with |- context [snd ?t] => replace t with r by (rewrite <- Er2, Ed; reflexivity) end.
        destruct (Z.ltb_spec (a_ret (snd r)) 0) as [Hneg|Hpos].
        - destruct (Z.eqb_spec (a_errno (snd r)) EINTR) as [He|He]; [|discriminate]. cbn [andb] in Hs. rewrite orb_true_r in Hs. cbn [andb] in Hs.
          apply IHk; [exact Hd|exact Hs|lia].
        - destruct (Z.ltb_spec (Z.of_nat (length data)) (a_ret (snd r))); [discriminate|].
          destruct (Z.eqb_spec (a_ret (snd r)) 0) as [Hz|Hz].
          + rewrite Hz. cbn [Z.to_nat skipn]. cbn [orb andb] in Hs. apply IHk; [exact Hd|exact Hs|lia].
          + apply IH; [|nia]. rewrite skipn_length. lia. }
      intros fuel w Hf. destruct data as [|x data0] eqn:Ed; [destruct fuel; discriminate|]. rewrite <- Ed in *.
      assert (Hne : data <> []) by (rewrite Ed; discriminate). apply (A K Hne fuel w (P (w_st w) fd data Hne)). lia.
  Qed.

  Lemma flush_terminates K fuel w f b : progressing os K -> brep f b -> K * B <= fuel -> flush_buffer strerror S os fuel w f <> OutOfFuel.
  Proof.
    intros P (H1 & H2 & H3 & H4) Hf. unfold flush_buffer.
    rewrite H2, (bread_n_firstn (f_buf f) 0 (length b) b) by (cbn [skipn]; auto). cbn [bind].
    pose proof (write_terminates K (f_fd f) (f_name f) P B b H3 fuel w Hf) as T.
    destruct (write_unbuffered strerror S os fuel w (f_fd f) (f_name f) b) as [[? ?]| | |]; cbn [bind]; congruence.
  Qed.

  Lemma wstep_terminates K fuel w f b o : progressing os K -> brep f b -> K * (B + length (op_data o)) <= fuel ->
    wstep B strerror S os fuel w f o <> OutOfFuel.
  Proof.
    intros P R Hf. assert (Hf1 : K * B <= fuel) by nia.
    destruct o as [d| | |]; cbn [wstep op_data] in *.
    - pose proof R as (H1 & H2 & H3 & H4). unfold append. rewrite H2.
      destruct (B <? length b); [discriminate|].
      set (k := Nat.min (length d) (B - length b)) in *.
      assert (Lk : length (firstn k d) = k) by (apply firstn_length_le; unfold k; lia).
      destruct (bput_bytes (f_buf f) (length b) (firstn k d)) as [buf| | |] eqn:Eb;
        [|rewrite bput_bytes_mid in Eb by (rewrite Lk, H1; unfold k; lia); discriminate..].
      cbn [bind]. assert (R1 := put_brep f b buf (firstn k d) R). rewrite Lk in R1.
      specialize (R1 ltac:(unfold k; lia) Eb). set (f1 := set_buf f buf (length b + k)) in *.
      destruct (skipn k d) as [|x rest] eqn:Es; [discriminate|]. rewrite <- Es in *.
      pose proof (flush_terminates K fuel w f1 _ P R1 Hf1) as T.
      destruct (flush_buffer_ok fuel w f1 _ _ R1 eq_refl) as [E|(w1 & st & l & E & W)]; [congruence|]. rewrite E. cbn [bind].
      destruct st; [|discriminate]. destruct (Nat.ltb_spec (length (skipn k d)) B) as [Hl|Hl].
      + change (f_buf (set_buf f1 (f_buf f1) 0)) with buf. rewrite bput_bytes_mid; [discriminate|]. assert (length buf = B) by exact (proj1 R1). lia.
      + assert (Ll : length (skipn k d) <= length d) by (rewrite skipn_length; lia).
        pose proof (write_terminates K (f_fd (set_buf f1 (f_buf f1) 0)) (f_name (set_buf f1 (f_buf f1) 0)) P (length d) (skipn k d) Ll fuel w1 ltac:(nia)) as T2.
        destruct (write_unbuffered _ _ _ _ _ _ _ _) as [[? ?]| | |]; cbn [bind]; congruence.
    - now apply (flush_terminates K fuel w f b).
    - unfold sync. destruct (sync_dir_if_manifest strerror S os w f) as [w1 [|]]; [|discriminate].
      pose proof (flush_terminates K fuel w1 f b P R Hf1) as T.
      destruct (flush_buffer strerror S os fuel w1 f) as [[[w2 f2] [|]]| | |]; cbn [bind]; try congruence.
      destruct (sync_fd _ _ _ _ _ _); discriminate.
    - unfold close. pose proof (flush_terminates K fuel w f b P R Hf1) as T.
      destruct (flush_buffer strerror S os fuel w f) as [[[w2 f2] st]| | |]; cbn [bind]; try congruence. unfold PosixOs.sys. discriminate.
  Qed.

  Lemma wrun_terminates K fuel : progressing os K -> forall ops w f b, brep f b ->
    (forall o, In o ops -> K * (B + length (op_data o)) <= fuel) -> wrun B strerror S os fuel w f ops <> OutOfFuel.
  Proof.
    intros P. induction ops as [|o ops IH]; intros w f b R Hf; cbn [wrun]; [discriminate|].
    pose proof (wstep_terminates K fuel w f b o P R (Hf o (or_introl eq_refl))) as T.
    destruct (wstep_ok fuel w f b o _ R eq_refl) as [E|(w1 & f1 & st & l & b1 & E & Q)]; [congruence|]. rewrite E. cbn [bind].
    assert (T2 := IH w1 f1 b1 (so_brep _ _ _ _ _ _ _ _ _ Q) (fun o Ho => Hf o (or_intror Ho))).
    destruct (wrun B strerror S os fuel w1 f1 ops) as [[[? ?] ?]| | |]; cbn [bind]; congruence.
  Qed.

  (** ** A session *)
  Lemma session_run fuel w0 name fl ops w2 fd l sts : session dbg B strerror os fuel w0 name fl ops w2 fd l sts ->
    exists w1 m d f2, let f := mk_wfile (repeat None B) 0 fd m name d in
      (m = true <-> names_manifest name) /\ in_dir name d /\ brep f [] /\ (0 <= fd)%Z /\ fd_inv fd f [] /\
      wrun B strerror S os fuel w1 f ops = Ret (w2, f2, sts) /\ w_log w2 = w_log w1 ++ l.
  Proof.
    intros (w1 & f & f2 & a & E1 & L1 & -> & E2 & L2). unfold new_writable in E1.
    pose proof (sys_log w0 (COpen name fl)) as L.
    remember (sys w0 (COpen name fl)) as wa eqn:Ewa. clear Ewa. destruct wa as [w1' a']. cbn [fst snd] in L.
    destruct (Z.ltb_spec (a_ret a') 0) as [Hn|Hp]; [injection E1 as _ H; now apply error_not_ok in H || discriminate|].
    destruct (new_wfile_ok dbg B name (a_ret a')) as (m & d & En & Hm & Hd). rewrite En in E1. cbn [bind] in E1. injection E1 as <- <-.
    assert (Ha : a' = a) by (rewrite L1 in L; apply app_inv_head in L; congruence). subst a'.
    exists w1', m, d, f2. cbv zeta. split; [exact Hm|]. split; [exact Hd|]. split; [|split; [exact Hp|split; [left; auto|auto]]].
    split; [apply repeat_length|]. repeat split; cbn; lia.
  Qed.
End Run.
