(** LoggerConcProofs.v -- the invariant behind C94. *)
From Coq Require Import List Arith NArith ZArith Lia Bool.
From Verif Require Import Outcome Logging Logger LoggerConc LoggerConcSpec.
Import ListNotations.

Lemma prefix_refl {A} (a : list A) : prefix a a.
Proof. exists []. now rewrite app_nil_r. Qed.
Lemma prefix_trans {A} (a b c : list A) : prefix a b -> prefix b c -> prefix a c.
Proof. intros (x & ->) (y & ->). exists (x ++ y). now rewrite app_assoc. Qed.
Lemma prefix_app {A} (a b c : list A) : prefix a b -> prefix a (b ++ c).
Proof. intros (x & ->). exists (x ++ c). now rewrite app_assoc. Qed.

(** ** What Logv leaves to do *)
Lemma bind_ret {A B} (m : outcome A) (f : A -> outcome B) b : bind m f = Ret b -> exists a, m = Ret a /\ f a = Ret b.
Proof. destruct m; cbn; try discriminate. eauto. Qed.
Ltac inv_bind H := let a := fresh "x" in let E := fresh "E" in apply bind_ret in H; destruct H as (a & E & H); cbn beta in H.
Lemma put_line_shape dbg b n o evs : put_line dbg b n o = Ret evs -> exists d, evs = [LFwrite d; LFflush].
Proof.
  unfold put_line. intros H. inv_bind H. inv_bind H. destruct x0 as (b', o'). inv_bind H. inv_bind H. exists x1. congruence.
Qed.
Lemma Logv_shape dbg stack t u tid r1 r2 evs : Logv dbg stack t u tid r1 r2 = Ret evs ->
  exists d, evs = [LFwrite d; LFflush] \/ exists n, evs = [LNew n; LFwrite d; LFflush; LDelete].
Proof.
  unfold Logv. intros H. inv_bind H. inv_bind H. destruct x0 as (b, o). destruct (o >=? _)%Z.
  - inv_bind H. inv_bind H. inv_bind H. destruct x2 as (b2, o2). inv_bind H. inv_bind H. apply put_line_shape in E5. destruct E5 as (d & ->). exists d. right. eexists. cbn in H. injection H as <-. reflexivity.
  - apply put_line_shape in H. destruct H as (d & ->). exists d. auto.
Qed.
Inductive pre (d : list N) : list log_event -> Prop :=
| pre1 n : pre d [LNew n; LFwrite d; LFflush; LDelete]
| pre2 : pre d [LFwrite d; LFflush; LDelete]
| pre3 : pre d [LFwrite d; LFflush].
Inductive mid : list log_event -> Prop := mid1 : mid [LFflush; LDelete] | mid2 : mid [LFflush].
Inductive post : list log_event -> Prop := post1 : post [LDelete] | post2 : post [].
Lemma Logv_pre dbg stack t u tid r1 r2 evs : Logv dbg stack t u tid r1 r2 = Ret evs ->
  pre (concat (map (fun e => match e with LFwrite d => d | _ => [] end) evs)) evs.
Proof. intros H. destruct (Logv_shape _ _ _ _ _ _ _ _ H) as (d & [->|(n & ->)]); cbn; rewrite ?app_nil_r; constructor. Qed.

(** ** The invariant.  [ps]: what each fwrite has brought, in the order in which they
    got the lock. *)
Definition pieces := list (nat * list N).
Definition text (cs : list lcall) (k : nat) : list N := match nth_error cs k with Some c => line c | None => [] end.
Definition owns (cs : list lcall) (t k : nat) : Prop := exists c, nth_error cs k = Some c /\ c_thread c = t.
Definition in_file (ps : pieces) (f : list N) (k : nat) : Prop :=
  exists p1 p2, ps = p1 ++ p2 /\ In k (map fst p1) /\ prefix (concat (map snd p1)) f.
Definition pc_call (p : lpc) : option nat := match p with LIdle => None | LRun k _ | LWriting k _ _ | LFlushing k _ => Some k end.
Definition thr_ok (cs : list lcall) (tr : list lev) (ps : pieces) (fl : bool) (lk : option nat) (f : list N) (t : nat) (p : lpc) : Prop :=
  (forall k, pc_call p = Some k -> owns cs t k /\ ~ In (LEnd k) tr) /\
  match p with
  | LIdle => True
  | LRun k evs =>
      (pre (text cs k) evs /\ ~ In k (map fst ps)) \/
      (mid evs /\ In k (map fst ps)) \/
      (post evs /\ In k (map fst ps) /\ (fl = false -> in_file ps f k))
  | LWriting k rest evs => lk = Some t /\ mid evs /\ exists ps' p, ps = ps' ++ [(k, p)] /\ p ++ rest = text cs k
  | LFlushing k evs => lk = Some t /\ post evs /\ In k (map fst ps)
  end.
Record linv (cf : lconf) (ps : pieces) : Prop := mk_linv {
  v_total : l_file cf ++ l_buf cf = concat (map snd ps);
  v_nodup : NoDup (map fst ps);
  v_pref : forall k p, In (k, p) ps -> prefix p (text (l_calls cf) k);
  v_thr : forall t, thr_ok (l_calls cf) (l_trace cf) ps (l_failed cf) (l_lock cf) (l_file cf) t (l_thr cf t);
  v_lock : forall t, l_lock cf = Some t -> exists k evs, (exists rest, l_thr cf t = LWriting k rest evs) \/ l_thr cf t = LFlushing k evs;
  v_end : forall k, In (LEnd k) (l_trace cf) -> In k (map fst ps) /\ (l_failed cf = false -> in_file ps (l_file cf) k);
  v_full : l_failed cf = false -> forall k p, In (k, p) ps -> p = text (l_calls cf) k \/ exists t rest evs, l_thr cf t = LWriting k rest evs;
  v_real : forall a b k1 k2, earlier cf a b -> map fst ps = k1 ++ b :: k2 -> In a k1;
  v_begun : forall k, In (LBegin k) (l_trace cf) <-> k < length (l_calls cf);
  v_keys : forall k, In k (map fst ps) -> k < length (l_calls cf);
  v_run : forall k, k < length (l_calls cf) -> In (LEnd k) (l_trace cf) \/ exists t, pc_call (l_thr cf t) = Some k
}.

Lemma in_file_more ps f f' k : in_file ps f k -> prefix f f' -> in_file ps f' k.
Proof. intros (p1 & p2 & E & I0 & P) Q. exists p1, p2. split; [exact E|]. split; [exact I0|]. eapply prefix_trans; eauto. Qed.
Lemma in_file_app ps qs f k : in_file ps f k -> in_file (ps ++ qs) f k.
Proof. intros (p1 & p2 & -> & I0 & P). exists p1, (p2 ++ qs). rewrite app_assoc. auto. Qed.
(** the last piece may change, for the others *)
Lemma in_file_last ps k0 p p' f k : in_file (ps ++ [(k0, p)]) f k -> k <> k0 -> in_file (ps ++ [(k0, p')]) f k.
Proof.
  intros (p1 & p2 & E & I0 & P) N. destruct p2 as [|x p2] using rev_ind.
  - rewrite app_nil_r in E. subst p1. exists ps, [(k0, p')]. split; [reflexivity|]. split.
    + rewrite map_app in I0. apply in_app_or in I0. destruct I0 as [I0|[I0|[]]]; [exact I0|]. cbn in I0. congruence.
    + rewrite map_app, concat_app in P. destruct P as (c & ->). eexists. rewrite <- app_assoc. reflexivity.
  - clear IHp2. rewrite app_assoc in E. apply app_inj_tail in E. destruct E as (-> & _). exists p1, (p2 ++ [(k0, p')]). rewrite app_assoc. auto.
Qed.
Lemma truncate : forall ps total cut, concat (map snd ps) = total ++ cut ->
  exists ps' : pieces, concat (map snd ps') = total /\ map fst ps' = map fst ps /\ forall k p, In (k, p) ps' -> exists q, In (k, q) ps /\ prefix p q.
Proof.
  induction ps as [|(k, q) ps IH]; intros total cut E; cbn [map concat snd] in E.
  - symmetry in E. apply app_eq_nil in E. destruct E as (-> & _). exists []. split; [reflexivity|]. split; [reflexivity|]. intros k p [].
  - destruct (Nat.le_gt_cases (length q) (length total)) as [C|C].
    + assert (exists tl, total = q ++ tl) as (tl & ->).
      { exists (skipn (length q) total). apply (f_equal (firstn (length q))) in E. rewrite firstn_app, firstn_all, Nat.sub_diag, firstn_app in E. replace (length q - length total) with 0 in E by lia. cbn [firstn] in E. rewrite !app_nil_r in E. rewrite E at 1. symmetry. apply firstn_skipn. }
      rewrite <- app_assoc in E. apply app_inv_head in E. destruct (IH tl cut E) as (ps' & A & B & D). exists ((k, q) :: ps'). cbn [map concat fst snd]. rewrite A, B. split; [reflexivity|]. split; [reflexivity|].
      intros k' p [X|X]; [assert (k' = k /\ p = q) as (-> & ->) by (split; congruence); exists q; split; [now left|apply prefix_refl]|]. destruct (D _ _ X) as (q' & Y & Z). exists q'. split; [now right|exact Z].
    + assert (P : prefix total q).
      { exists (skipn (length total) q). apply (f_equal (firstn (length total))) in E. rewrite (firstn_app _ total cut), firstn_all, Nat.sub_diag, firstn_app in E. replace (length total - length q) with 0 in E by lia. cbn [firstn] in E. rewrite !app_nil_r in E. rewrite <- E at 1. symmetry. apply firstn_skipn. }
      exists ((k, total) :: map (fun kp => (fst kp, [])) ps). cbn [map concat fst snd]. split; [|split].
      * rewrite map_map. cbn [snd]. assert (Z : concat (map (fun _ : nat * list N => @nil N) ps) = []) by (clear; induction ps; cbn; auto). rewrite Z. now rewrite app_nil_r.
      * rewrite map_map. cbn [fst]. reflexivity.
      * intros k' p [X|X]; [assert (k' = k /\ p = total) as (-> & ->) by (split; congruence); exists q; split; [now left|exact P]|]. apply in_map_iff in X. destruct X as ((k2, q2) & X & Y). cbn in X. assert (k2 = k' /\ p = []) as (-> & ->) by (split; congruence). exists q2. split; [now right|]. exists q2. reflexivity.
Qed.

Lemma NoDup_app_single {A} (l : list A) x : NoDup l -> ~ In x l -> NoDup (l ++ [x]).
Proof. intros ND NI. apply (NoDup_Add (a:=x) (l:=l)); [|auto]. pose proof (Add_app x l []) as H. now rewrite app_nil_r in H. Qed.
Lemma lset_same f t p : lset f t p t = p.
Proof. unfold lset. now rewrite Nat.eqb_refl. Qed.
Lemma lset_other f t p x : x <> t -> lset f t p x = f x.
Proof. intros N. unfold lset. destruct (Nat.eqb_spec x t); congruence. Qed.
Lemma earlier_begin cs th lk b f c fl op tr n a b' :
  earlier (mk_lconf cs th lk b f c fl op (LBegin n :: tr)) a b' -> b' = n \/ earlier (mk_lconf cs th lk b f c fl op tr) a b'.
Proof.
  intros (l1 & l2 & l3 & E). cbn in E. destruct l1 as [|x l1]; cbn in E; [left; congruence|]. right. exists l1, l2, l3. cbn. congruence.
Qed.
Lemma earlier_end cs th lk b f c fl op tr n a b' :
  earlier (mk_lconf cs th lk b f c fl op (LEnd n :: tr)) a b' -> earlier (mk_lconf cs th lk b f c fl op tr) a b'.
Proof.
  intros (l1 & l2 & l3 & E). cbn in E. destruct l1 as [|x l1]; cbn in E; [discriminate E|]. exists l1, l2, l3. cbn. congruence.
Qed.
Lemma earlier_ended cf a b : earlier cf a b -> In (LEnd a) (l_trace cf).
Proof. intros (l1 & l2 & l3 & ->). apply in_or_app. right. right. apply in_or_app. right. now left. Qed.
Lemma text_app cs x k : k < length cs -> text (cs ++ [x]) k = text cs k.
Proof. intros H. unfold text. now rewrite nth_error_app1. Qed.
Lemma owns_app cs x t k : owns cs t k -> owns (cs ++ [x]) t k.
Proof. intros (c & E & T). exists c. split; [|exact T]. rewrite nth_error_app1; [exact E|]. apply nth_error_Some. congruence. Qed.
Lemma owns_lt cs t k : owns cs t k -> k < length cs.
Proof. intros (c & E & _). apply nth_error_Some. congruence. Qed.
Lemma owns_fun cs t t' k : owns cs t k -> owns cs t' k -> t = t'.
Proof. intros (c & E & T) (c' & E' & T'). congruence. Qed.

(** nobody else is inside the stream while the lock is free *)
Lemma thr_outside cs tr ps fl f t p : thr_ok cs tr ps fl None f t p -> match p with LIdle | LRun _ _ => True | _ => False end.
Proof. intros (_ & H). destruct p; try exact Logic.I; destruct H as (X & _); discriminate X. Qed.
Lemma thr_relock cs tr ps fl f t p lk : thr_ok cs tr ps fl None f t p -> thr_ok cs tr ps fl lk f t p.
Proof. intros H. pose proof (thr_outside _ _ _ _ _ _ _ H) as O. destruct H as (A & B). split; [exact A|]. destruct p; try (exfalso; exact O); exact B. Qed.
Lemma thr_unlock cs tr ps fl f t t' p : t' <> t -> thr_ok cs tr ps fl (Some t) f t' p -> thr_ok cs tr ps fl None f t' p.
Proof. intros N (A & B). split; [exact A|]. destruct p; try exact B; destruct B as (X & _); congruence. Qed.
Lemma thr_fail cs tr ps fl lk f t p : thr_ok cs tr ps fl lk f t p -> thr_ok cs tr ps true lk f t p.
Proof. intros (A & B). split; [exact A|]. destruct p; try exact B. destruct B as [B|[B|(B & C & _)]]; [left|right; left|right; right]; auto. split; [exact B|]. split; [exact C|discriminate]. Qed.
Lemma thr_file cs tr ps fl lk f f' t p : prefix f f' -> thr_ok cs tr ps fl lk f t p -> thr_ok cs tr ps fl lk f' t p.
Proof. intros P (A & B). split; [exact A|]. destruct p; try exact B. destruct B as [B|[B|(B & C & D)]]; [left|right; left|right; right]; auto. split; [exact B|]. split; [exact C|]. intros F. eapply in_file_more; eauto. Qed.

Lemma lstep_inv dbg local cf cf' ps : linv cf ps -> lstep dbg local cf cf' -> exists ps', linv cf' ps'.
Proof.
  intros V H. destruct V as [T ND PF TH LK EN FU RE BE KE RU].
  destruct H as [cs th lk b f c c' fl op tr _|cs th lk b f c fl tr t tid stack r1 r2 evs Ht Hs HL|cs th lk b f c fl op tr t k n evs Ht|cs th lk b f c fl op tr t k evs Ht|cs th b f c fl op tr t k d evs Ht|cs th lk b f c fl op tr t k d1 d2 evs Ht|cs th lk b f c fl op tr t k evs Ht|cs th lk b f c fl op tr t k d evs Ht|cs th t b1 b2 f c fl op tr|cs th b f c fl op tr t k evs Ht|cs th lk f c fl op tr t k evs Ht|cs th lk b1 b2 f c fl op tr t k evs Ht|cs th lk b f c fl op tr t k Ht|cs th b f c fl tr Hq|cs th b1 b2 f c fl tr Hq];
    cbn [l_calls l_thr l_lock l_buf l_file l_clock l_failed l_open l_trace] in *.
  - (* tick *) exists ps. constructor; auto.
  - (* begin *)
    exists ps. pose proof (TH t) as Tt. rewrite Ht in Tt.
    assert (Lc : length (cs ++ [mk_lcall t (fst c) (snd c) tid r1 r2 evs]) = S (length cs)) by (rewrite app_length; cbn; lia).
    assert (NE : ~ In (LEnd (length cs)) tr). { intros X. apply EN in X. destruct X as (X & _). apply KE in X. lia. }
    constructor; cbn [l_calls l_thr l_lock l_buf l_file l_clock l_failed l_open l_trace]; auto.
    + intros k p I0. rewrite text_app; [auto|]. apply KE. apply in_map_iff. exists (k, p). auto.
    + intros t'. destruct (Nat.eq_dec t' t) as [->|N].
      * rewrite lset_same. split.
        -- intros k E. cbn in E. assert (k = length cs) by congruence. subst k. split.
           ++ eexists. rewrite nth_error_app2 by lia. rewrite Nat.sub_diag. split; reflexivity.
           ++ intros [X|X]; [discriminate X|]. exact (NE X).
        -- left. split.
           ++ unfold text. rewrite nth_error_app2 by lia. rewrite Nat.sub_diag. cbn [nth_error line c_does]. eapply Logv_pre. exact HL.
           ++ intros X. apply KE in X. lia.
      * rewrite lset_other by exact N. destruct (TH t') as (A & B). split.
        -- intros k E. destruct (A k E) as (O & NE'). split; [now apply owns_app|]. intros [X|X]; [discriminate X|]. exact (NE' X).
        -- destruct (th t') as [|k e|k rest e|k e]; auto.
           ++ destruct B as [(B & C)|B]; [left|right; exact B]. split; [|exact C]. rewrite text_app; [exact B|]. eapply owns_lt, A. reflexivity.
           ++ rewrite text_app; [exact B|]. eapply owns_lt, A. reflexivity.
    + intros t' E. destruct (LK t' E) as (k & e & X). destruct (Nat.eq_dec t' t) as [->|N]; [rewrite Ht in X; destruct X as [(rest & X)|X]; discriminate X|]. exists k, e. rewrite lset_other by exact N. exact X.
    + intros k [X|X]; [discriminate X|]. apply EN. exact X.
    + intros F k p I0. destruct (FU F k p I0) as [X|(t' & rest & e & X)].
      * left. rewrite text_app; [exact X|]. apply KE. apply in_map_iff. exists (k, p). auto.
      * right. exists t', rest, e. rewrite lset_other; [exact X|]. intros ->. congruence.
    + intros a b' k1 k2 E Eq. apply earlier_begin in E. destruct E as [->|E]; [|exact (RE _ _ _ _ E Eq)].
      exfalso. assert (In (length cs) (map fst ps)) by (rewrite Eq; apply in_or_app; right; now left). apply KE in H. lia.
    + intros k. rewrite Lc. cbn [In]. rewrite BE. split; [intros [X|X]; [assert (k = length cs) by congruence; lia|lia]|]. intros X. destruct (Nat.eq_dec k (length cs)) as [->|N]; [now left|right; lia].
    + intros k X. apply KE in X. lia.
    + intros k X. rewrite Lc in X. destruct (Nat.eq_dec k (length cs)) as [->|N]; [right; exists t; rewrite lset_same; reflexivity|].
      destruct (RU k ltac:(lia)) as [Y|(t' & Y)]; [left; now right|]. right. exists t'. rewrite lset_other; [exact Y|]. intros ->. rewrite Ht in Y. discriminate Y.
  - (* new *)
    exists ps. pose proof (TH t) as Tt. rewrite Ht in Tt. destruct Tt as (A & B).
    constructor; cbn [l_calls l_thr l_lock l_buf l_file l_clock l_failed l_open l_trace]; auto.
    + intros t'. destruct (Nat.eq_dec t' t) as [->|N]; [|rewrite lset_other by exact N; auto]. rewrite lset_same. split; [exact A|]. destruct B as [(B & C)|[(B & C)|(B & C)]]; inversion B; subst. left. split; [constructor|exact C].
    + intros t' E. destruct (LK t' E) as (k0 & e & X). destruct (Nat.eq_dec t' t) as [->|N]; [rewrite Ht in X; destruct X as [(rest & X)|X]; discriminate X|]. exists k0, e. rewrite lset_other by exact N. exact X.
    + intros F k0 p I0. destruct (FU F k0 p I0) as [X|(t' & rest & e & X)]; [now left|]. right. exists t', rest, e. rewrite lset_other; [exact X|]. intros ->. congruence.
    + intros k0 X. destruct (RU k0 X) as [Y|(t' & Y)]; [now left|]. right. exists t'. destruct (Nat.eq_dec t' t) as [->|N]; [rewrite lset_same, Ht in *; exact Y|]. rewrite lset_other by exact N. exact Y.
  - (* delete *)
    exists ps. pose proof (TH t) as Tt. rewrite Ht in Tt. destruct Tt as (A & B).
    constructor; cbn [l_calls l_thr l_lock l_buf l_file l_clock l_failed l_open l_trace]; auto.
    + intros t'. destruct (Nat.eq_dec t' t) as [->|N]; [|rewrite lset_other by exact N; auto]. rewrite lset_same. split; [exact A|]. destruct B as [(B & C)|[(B & C)|(B & C)]]; inversion B; subst. right. right. split; [constructor|exact C].
    + intros t' E. destruct (LK t' E) as (k0 & e & X). destruct (Nat.eq_dec t' t) as [->|N]; [rewrite Ht in X; destruct X as [(rest & X)|X]; discriminate X|]. exists k0, e. rewrite lset_other by exact N. exact X.
    + intros F k0 p I0. destruct (FU F k0 p I0) as [X|(t' & rest & e & X)]; [now left|]. right. exists t', rest, e. rewrite lset_other; [exact X|]. intros ->. congruence.
    + intros k0 X. destruct (RU k0 X) as [Y|(t' & Y)]; [now left|]. right. exists t'. destruct (Nat.eq_dec t' t) as [->|N]; [rewrite lset_same, Ht in *; exact Y|]. rewrite lset_other by exact N. exact Y.
  - (* fwrite *)
    exists (ps ++ [(k, [])]). pose proof (TH t) as Tt. rewrite Ht in Tt. destruct Tt as (A & B).
    assert (P : pre (text cs k) (LFwrite d :: evs) /\ ~ In k (map fst ps)) by (destruct B as [B|[(B & _)|(B & _)]]; [exact B|inversion B|inversion B]).
    destruct P as (P & NI). assert (D : d = text cs k /\ mid evs) by (inversion P; subst; split; [reflexivity|constructor|reflexivity|constructor]). destruct D as (-> & M).
    assert (MF : map fst (ps ++ [(k, [])]) = map fst ps ++ [k]) by (rewrite map_app; reflexivity).
    constructor; cbn [l_calls l_thr l_lock l_buf l_file l_clock l_failed l_open l_trace]; auto.
    + rewrite map_app, concat_app. cbn. rewrite app_nil_r. exact T.
    + rewrite MF. apply NoDup_app_single; auto.
    + intros k0 p I0. apply in_app_or in I0. destruct I0 as [I0|[I0|[]]]; [auto|]. assert (p = []) by congruence. subst p. eexists. reflexivity.
    + intros t'. destruct (Nat.eq_dec t' t) as [->|N].
      * rewrite lset_same. split; [exact A|]. split; [reflexivity|]. split; [exact M|]. exists ps, []. split; reflexivity.
      * rewrite lset_other by exact N. pose proof (TH t') as H. pose proof (thr_outside _ _ _ _ _ _ _ H) as O. destruct H as (A' & B'). split; [exact A'|]. destruct (th t') as [|k' e| |]; try (exfalso; exact O); [exact Logic.I|].
        rewrite MF. destruct B' as [(B1 & B2)|[(B1 & B2)|(B1 & B2 & B3)]]; [left|right; left|right; right].
        -- split; [exact B1|]. intros X. apply in_app_or in X. destruct X as [X|[X|[]]]; [auto|]. subst k'. apply N. eapply owns_fun; [apply A'; reflexivity|apply A; reflexivity].
        -- split; [exact B1|]. apply in_or_app. auto.
        -- split; [exact B1|]. split; [apply in_or_app; auto|]. intros F. apply in_file_app. auto.
    + intros t' E. assert (t' = t) by congruence. subst t'. exists k, evs. left. eexists. apply lset_same.
    + intros k0 X. destruct (EN k0 X) as (Y & Z). rewrite MF. split; [apply in_or_app; auto|]. intros F. apply in_file_app. auto.
    + intros F k0 p I0. apply in_app_or in I0. destruct I0 as [I0|[I0|[]]].
      * destruct (FU F k0 p I0) as [X|(t' & rest & e & X)]; [now left|]. pose proof (TH t') as Q. rewrite X in Q. destruct (thr_outside _ _ _ _ _ _ _ Q).
      * right. exists t. do 2 eexists. rewrite lset_same. assert (k0 = k) by congruence. subst k0. reflexivity.
    + intros a b' k1 k2 E Eq. rewrite MF in Eq. destruct k2 as [|x k2] using rev_ind.
      * apply app_inj_tail in Eq. destruct Eq as (<- & ->). apply EN. eapply (earlier_ended (mk_lconf cs th None b f c fl op tr)). exact E.
      * clear IHk2. change (k1 ++ b' :: k2 ++ [x]) with (k1 ++ (b' :: k2) ++ [x]) in Eq. rewrite app_assoc in Eq. apply app_inj_tail in Eq. destruct Eq as (Eq & _). exact (RE a b' k1 k2 E Eq).
    + intros k0 X. rewrite MF in X. apply in_app_or in X. destruct X as [X|[<-|[]]]; [auto|]. eapply owns_lt, A. reflexivity.
    + intros k0 X. destruct (RU k0 X) as [Y|(t' & Y)]; [now left|]. right. exists t'. destruct (Nat.eq_dec t' t) as [->|N]; [rewrite lset_same, Ht in *; exact Y|]. rewrite lset_other by exact N. exact Y.
  - (* put *)
    pose proof (TH t) as Tt. rewrite Ht in Tt. destruct Tt as (A & L & M & ps' & p & -> & Ep). subst lk.
    exists (ps' ++ [(k, p ++ d1)]).
    assert (MF : map fst (ps' ++ [(k, p ++ d1)]) = map fst (ps' ++ [(k, p)])) by (rewrite !map_app; reflexivity).
    assert (NK : ~ In k (map fst ps')). { rewrite map_app in ND. cbn in ND. apply NoDup_remove in ND. rewrite app_nil_r in ND. apply ND. }
    constructor; cbn [l_calls l_thr l_lock l_buf l_file l_clock l_failed l_open l_trace]; auto.
    + rewrite map_app, concat_app in T |- *. cbn [map concat snd] in T |- *. rewrite app_nil_r in T |- *. rewrite !app_assoc, T. reflexivity.
    + rewrite MF. exact ND.
    + intros k0 q I0. apply in_app_or in I0. destruct I0 as [I0|[I0|[]]]; [apply PF; apply in_or_app; auto|]. assert (k0 = k /\ q = p ++ d1) as (-> & ->) by (split; congruence). exists d2. rewrite <- Ep, app_assoc. reflexivity.
    + intros t'. destruct (Nat.eq_dec t' t) as [->|N].
      * rewrite lset_same. split; [exact A|]. split; [reflexivity|]. split; [exact M|]. exists ps', (p ++ d1). split; [reflexivity|]. rewrite <- Ep, app_assoc. reflexivity.
      * rewrite lset_other by exact N. destruct (TH t') as (A' & B'). split; [exact A'|]. rewrite MF. destruct (th t') as [|k' e|k' r e|k' e]; auto.
        -- destruct B' as [B'|[B'|(B1 & B2 & B3)]]; [now left|right; now left|]. right. right. split; [exact B1|]. split; [exact B2|]. intros F. eapply in_file_last; [apply B3, F|]. intros ->. apply N. eapply owns_fun; [apply A'; reflexivity|apply A; reflexivity].
        -- destruct B' as (X & _). congruence.
    + intros t' E. assert (t' = t) by congruence. subst t'. exists k, evs. left. eexists. apply lset_same.
    + intros k0 X. rewrite MF. destruct (EN k0 X) as (Y & Z). split; [exact Y|]. intros F. eapply in_file_last; [apply Z, F|]. intros ->. destruct (A k eq_refl) as (_ & W). exact (W X).
    + intros F k0 q I0. apply in_app_or in I0. destruct I0 as [I0|[I0|[]]].
      * destruct (FU F k0 q ltac:(apply in_or_app; auto)) as [X|(t' & rest & e & X)]; [now left|]. pose proof (TH t') as Q. rewrite X in Q. destruct Q as (_ & L2 & _). assert (t' = t) by congruence. subst t'. exfalso. apply NK. assert (k0 = k) by congruence. subst k0. apply in_map_iff. exists (k, q). auto.
      * right. exists t. do 2 eexists. rewrite lset_same. assert (k0 = k) by congruence. subst k0. reflexivity.
    + intros a b' k1 k2 E Eq. rewrite MF in Eq. exact (RE a b' k1 k2 E Eq).
    + intros k0 X. rewrite MF in X. auto.
    + intros k0 X. destruct (RU k0 X) as [Y|(t' & Y)]; [now left|]. right. exists t'. destruct (Nat.eq_dec t' t) as [->|N]; [rewrite lset_same, Ht in *; exact Y|]. rewrite lset_other by exact N. exact Y.
  - (* written *)
    pose proof (TH t) as Tt. rewrite Ht in Tt. destruct Tt as (A & L & M & ps' & p & Eps & Ep). subst lk. rewrite app_nil_r in Ep. exists ps.
    assert (Ik : In k (map fst ps)) by (rewrite Eps, map_app; apply in_or_app; right; now left).
    constructor; cbn [l_calls l_thr l_lock l_buf l_file l_clock l_failed l_open l_trace]; auto.
    + intros t'. destruct (Nat.eq_dec t' t) as [->|N]; [rewrite lset_same; split; [exact A|]; right; left; auto|]. rewrite lset_other by exact N. eapply thr_unlock; eauto.
    + discriminate.
    + intros F k0 q I0. destruct (FU F k0 q I0) as [X|(t' & rest & e & X)]; [now left|]. left. pose proof (TH t') as Q. rewrite X in Q. destruct Q as (_ & L2 & _). assert (t' = t) by congruence. subst t'. assert (k0 = k) by congruence. subst k0.
      rewrite Eps in I0. apply in_app_or in I0. destruct I0 as [I0|[I0|[]]]; [|congruence]. exfalso. rewrite Eps, map_app in ND. cbn in ND. apply NoDup_remove in ND. rewrite app_nil_r in ND. apply ND. apply in_map_iff. exists (k, q). auto.
    + intros k0 X. destruct (RU k0 X) as [Y|(t' & Y)]; [now left|]. right. exists t'. destruct (Nat.eq_dec t' t) as [->|N]; [rewrite lset_same, Ht in *; exact Y|]. rewrite lset_other by exact N. exact Y.
  - (* write fails *)
    pose proof (TH t) as Tt. rewrite Ht in Tt. destruct Tt as (A & L & M & ps' & p & Eps & Ep). subst lk. exists ps.
    assert (Ik : In k (map fst ps)) by (rewrite Eps, map_app; apply in_or_app; right; now left).
    constructor; cbn [l_calls l_thr l_lock l_buf l_file l_clock l_failed l_open l_trace]; auto; try discriminate.
    + intros t'. destruct (Nat.eq_dec t' t) as [->|N]; [rewrite lset_same; split; [exact A|]; right; left; auto|]. rewrite lset_other by exact N. eapply thr_fail, thr_unlock; eauto.
    + intros k0 X. split; [apply EN; exact X|discriminate].
    + intros k0 X. destruct (RU k0 X) as [Y|(t' & Y)]; [now left|]. right. exists t'. destruct (Nat.eq_dec t' t) as [->|N]; [rewrite lset_same, Ht in *; exact Y|]. rewrite lset_other by exact N. exact Y.
  - (* drain *)
    exists ps. constructor; cbn [l_calls l_thr l_lock l_buf l_file l_clock l_failed l_open l_trace]; auto.
    + rewrite <- app_assoc. exact T.
    + intros t'. eapply thr_file; [exists b1; reflexivity|apply TH].
    + intros k0 X. destruct (EN k0 X) as (Y & Z). split; [exact Y|]. intros F. eapply in_file_more; [apply Z, F|exists b1; reflexivity].
  - (* fflush *)
    exists ps. pose proof (TH t) as Tt. rewrite Ht in Tt. destruct Tt as (A & B).
    assert (P : post evs /\ In k (map fst ps)). { destruct B as [(B & _)|[(B & C)|(B & _)]]; inversion B; subst; split; auto; constructor. }
    destruct P as (P & Ik).
    constructor; cbn [l_calls l_thr l_lock l_buf l_file l_clock l_failed l_open l_trace]; auto.
    + intros t'. destruct (Nat.eq_dec t' t) as [->|N]; [rewrite lset_same; split; [exact A|]; auto|]. rewrite lset_other by exact N. apply thr_relock. auto.
    + intros t' E. assert (t' = t) by congruence. subst t'. exists k, evs. right. apply lset_same.
    + intros F k0 q I0. destruct (FU F k0 q I0) as [X|(t' & rest & e & X)]; [now left|]. pose proof (TH t') as Q. rewrite X in Q. destruct (thr_outside _ _ _ _ _ _ _ Q).
    + intros k0 X. destruct (RU k0 X) as [Y|(t' & Y)]; [now left|]. right. exists t'. destruct (Nat.eq_dec t' t) as [->|N]; [rewrite lset_same, Ht in *; exact Y|]. rewrite lset_other by exact N. exact Y.
  - (* flushed *)
    exists ps. pose proof (TH t) as Tt. rewrite Ht in Tt. destruct Tt as (A & L & P & Ik). subst lk. rewrite app_nil_r in T.
    constructor; cbn [l_calls l_thr l_lock l_buf l_file l_clock l_failed l_open l_trace]; auto.
    + rewrite app_nil_r. exact T.
    + intros t'. destruct (Nat.eq_dec t' t) as [->|N].
      * rewrite lset_same. split; [exact A|]. right. right. split; [exact P|]. split; [exact Ik|]. intros _. exists ps, []. rewrite app_nil_r. split; [reflexivity|]. split; [exact Ik|]. rewrite <- T. apply prefix_refl.
      * rewrite lset_other by exact N. eapply thr_unlock; eauto.
    + discriminate.
    + intros F k0 q I0. destruct (FU F k0 q I0) as [X|(t' & rest & e & X)]; [now left|]. pose proof (TH t') as Q. rewrite X in Q. destruct Q as (_ & L2 & _). assert (t' = t) by congruence. subst t'. congruence.
    + intros k0 X. destruct (RU k0 X) as [Y|(t' & Y)]; [now left|]. right. exists t'. destruct (Nat.eq_dec t' t) as [->|N]; [rewrite lset_same, Ht in *; exact Y|]. rewrite lset_other by exact N. exact Y.
  - (* flush fails *)
    pose proof (TH t) as Tt. rewrite Ht in Tt. destruct Tt as (A & L & P & Ik). subst lk. rewrite app_assoc in T.
    destruct (truncate ps (f ++ b1) b2 (eq_sym T)) as (ps' & T' & MF & Q). exists ps'.
    constructor; cbn [l_calls l_thr l_lock l_buf l_file l_clock l_failed l_open l_trace]; auto; try discriminate.
    + rewrite MF. exact ND.
    + intros k0 p I0. destruct (Q _ _ I0) as (q & I1 & X). eapply prefix_trans; [exact X|]. auto.
    + intros t'. destruct (Nat.eq_dec t' t) as [->|N].
      * rewrite lset_same. split; [exact A|]. right. right. rewrite MF. split; [exact P|]. split; [exact Ik|discriminate].
      * rewrite lset_other by exact N. pose proof (thr_unlock _ _ _ _ _ _ _ _ N (TH t')) as H. pose proof (thr_outside _ _ _ _ _ _ _ H) as O. destruct H as (A' & B'). split; [exact A'|]. destruct (th t') as [|k' e| |]; try (exfalso; exact O); [exact Logic.I|]. rewrite MF. destruct B' as [B'|[B'|(B1 & B2 & B3)]]; [now left|right; now left|]. right. right. split; [exact B1|]. split; [exact B2|discriminate].
    + intros k0 X. rewrite MF. split; [apply EN; exact X|discriminate].
    + intros a b' k1 k2 E Eq. rewrite MF in Eq. exact (RE a b' k1 k2 E Eq).
    + intros k0 X. rewrite MF in X. auto.
    + intros k0 X. destruct (RU k0 X) as [Y|(t' & Y)]; [now left|]. right. exists t'. destruct (Nat.eq_dec t' t) as [->|N]; [rewrite lset_same, Ht in *; exact Y|]. rewrite lset_other by exact N. exact Y.
  - (* end *)
    exists ps. pose proof (TH t) as Tt. rewrite Ht in Tt. destruct Tt as (A & B).
    assert (P : In k (map fst ps) /\ (fl = false -> in_file ps f k)) by (destruct B as [(B & _)|[(B & _)|(B & C)]]; [inversion B|inversion B|exact C]).
    destruct P as (Ik & If).
    constructor; cbn [l_calls l_thr l_lock l_buf l_file l_clock l_failed l_open l_trace]; auto.
    + intros t'. destruct (Nat.eq_dec t' t) as [->|N]; [rewrite lset_same; split; [discriminate|exact Logic.I]|]. rewrite lset_other by exact N. destruct (TH t') as (A' & B'). split; [|exact B']. intros k0 E. destruct (A' k0 E) as (O & NE). split; [exact O|]. intros [X|X]; [|exact (NE X)]. assert (k0 = k) by congruence. subst k0. apply N. eapply owns_fun; [exact O|apply A; reflexivity].
    + intros t' E. destruct (LK t' E) as (k0 & e & X). destruct (Nat.eq_dec t' t) as [->|N]; [rewrite Ht in X; destruct X as [(rest & X)|X]; discriminate X|]. exists k0, e. rewrite lset_other by exact N. exact X.
    + intros k0 [X|X]; [assert (k0 = k) by congruence; subst k0; auto|]. apply EN. exact X.
    + intros F k0 q I0. destruct (FU F k0 q I0) as [X|(t' & rest & e & X)]; [now left|]. right. exists t', rest, e. rewrite lset_other; [exact X|]. intros ->. congruence.
    + intros a b' k1 k2 E Eq. apply earlier_end in E. exact (RE a b' k1 k2 E Eq).
    + intros k0. rewrite <- BE. cbn [In]. split; [intros [X|X]; [discriminate X|exact X]|auto].
    + intros k0 X. destruct (RU k0 X) as [Y|(t' & Y)]; [left; now right|]. destruct (Nat.eq_dec t' t) as [->|N]; [left; left; rewrite Ht in Y; cbn in Y; congruence|]. right. exists t'. rewrite lset_other by exact N. exact Y.
  - (* close *)
    exists ps. constructor; cbn [l_calls l_thr l_lock l_buf l_file l_clock l_failed l_open l_trace]; auto.
    + rewrite app_nil_r. exact T.
    + intros t'. rewrite Hq. split; [discriminate|exact Logic.I].
    + intros k0 X. destruct (EN k0 X) as (Y & Z). split; [exact Y|]. intros F. eapply in_file_more; [apply Z, F|exists b; reflexivity].
  - (* close fails *)
    rewrite app_assoc in T. destruct (truncate ps (f ++ b1) b2 (eq_sym T)) as (ps' & T' & MF & Q). exists ps'.
    constructor; cbn [l_calls l_thr l_lock l_buf l_file l_clock l_failed l_open l_trace]; auto; try discriminate.
    + rewrite app_nil_r. congruence.
    + rewrite MF. exact ND.
    + intros k0 p I0. destruct (Q _ _ I0) as (q & I1 & X). eapply prefix_trans; [exact X|]. auto.
    + intros t'. rewrite Hq. split; [discriminate|exact Logic.I].
    + intros k0 X. rewrite MF. split; [apply EN; exact X|discriminate].
    + intros a b' k1 k2 E Eq. rewrite MF in Eq. exact (RE a b' k1 k2 E Eq).
    + intros k0 X. rewrite MF in X. auto.
Qed.

Lemma lreach_inv dbg local c0 cf : lreach dbg local c0 cf -> exists ps, linv cf ps.
Proof.
  induction 1 as [|cf cf' R (ps & V) H]; [|eapply lstep_inv; eauto].
  exists []. constructor; cbn; auto.
  - constructor.
  - intros k p [].
  - intros t. split; [discriminate|exact Logic.I].
  - discriminate.
  - intros k [].
  - intros _ k p [].
  - intros a b k1 k2 _ E. destruct k1; discriminate E.
  - intros k. split; [intros []|lia].
  - intros k [].
  - intros k H. lia.
Qed.
