(** PosixConcDir.v -- proofs about GetChildren with several threads. *)
From Coq Require Import List Arith NArith ZArith Lia Bool Permutation.
From Verif Require Import Outcome Status MemEnv PosixOs PosixWritable PosixRead PosixEnv PosixFs PosixEnvSpec PosixConc PosixConcSpec PosixConcSafe PosixConcHeld PosixConcInv PosixConcProofs PosixConcTrace PosixConcFacts PosixConcReads PosixConcWriteSpec PosixConcWr PosixConcWrites PosixConcFiles PosixConcObj PosixConcStreamSpec PosixConcStream PosixConcDirSpec.
Import ListNotations.

(** ** The program *)
Definition dir_reads (b : N) (l : list answer) : list (syscall * answer) := map (fun a => (CReaddir b, a)) l.
Section Prog.
  Variable dbg : bool.
  Variable B : nat.
  Variable strerror : Z -> str.
  Lemma read_dir_path b : forall fuel acc l r, path (pread_dir fuel b acc) l (PDone r) ->
    exists reads last, l = dir_reads b reads ++ [(CReaddir b, last)] /\ a_ret last = 0%Z /\ (forall a, In a reads -> a_ret a <> 0%Z) /\ r = acc ++ map a_data reads.
  Proof.
    induction fuel as [|fuel IH]; intros acc l r P; cbn [pread_dir] in P.
    - apply path_bad in P. destruct P as (_ & P). discriminate.
    - unfold psys in P. cbn [pbind] in P. apply path_psys in P. destruct P as [(_ & P)|(a & l' & -> & P)]; [discriminate|]. destruct (Z.eqb_spec (a_ret a) 0) as [L|L].
      + apply path_done in P. destruct P as (-> & P). injection P as ->. exists [], a. cbn. rewrite app_nil_r. repeat split; auto.
      + destruct (IH _ _ _ P) as (reads & last & -> & H1 & H2 & ->). exists (a :: reads), last. cbn [dir_reads map app]. split; [reflexivity|]. split; [exact H1|]. split.
        * intros x [<-|X]; auto.
        * rewrite <- app_assoc. reflexivity.
  Qed.
  Lemma children_path fuel d ob l o q : path (prog_of dbg B strerror fuel (PChildren d) ob) l (PDone (o, q)) ->
    (exists a, l = [(COpendir d, a)] /\ a_val a = 0%N /\ q = QNames (PosixOs.PosixError strerror d (a_errno a)) []) \/
    (exists a0 reads last ac, l = (COpendir d, a0) :: dir_reads (a_val a0) reads ++ [(CReaddir (a_val a0), last); (CClosedir (a_val a0), ac)] /\ a_val a0 <> 0%N /\
      a_ret last = 0%Z /\ (forall a, In a reads -> a_ret a <> 0%Z) /\ q = QNames SOk (map a_data reads)).
  Proof.
    cbn [prog_of]. intros P. apply path_bind in P. destruct P as (l1 & [st L] & l2 & -> & P1 & P2). apply path_done in P2. destruct P2 as (-> & P2). injection P2 as -> ->. rewrite app_nil_r.
    unfold pget_children, psys in P1. cbn [pbind] in P1. apply path_psys in P1. destruct P1 as [(_ & P)|(a & l' & -> & P)]; [discriminate|]. destruct (N.eqb_spec (a_val a) 0) as [Z|Z].
    - apply path_done in P. destruct P as (-> & P). injection P as -> ->. left. eauto.
    - right. apply path_bind in P. destruct P as (l1 & r & l2 & -> & P1 & P2). destruct (read_dir_path _ _ _ _ _ P1) as (reads & last & -> & H1 & H2 & ->).
      apply path_psys in P2. destruct P2 as [(_ & P)|(ac & l' & -> & P)]; [discriminate|]. apply path_done in P. destruct P as (-> & P). injection P as -> ->.
      exists a, reads, last, ac. rewrite <- app_assoc. repeat split; auto.
  Qed.
  (** the next system call *)
  Lemma read_dir_next b (f : list str -> prog (status * list str)) ac : forall fuel acc l c k,
    (forall r, f r = PSys (CClosedir b) (fun _ => PDone (SOk, ac r))) ->
    path (pbind (pread_dir fuel b acc) f) l (PSys c k) -> c = CReaddir b \/ c = CClosedir b.
  Proof.
    induction fuel as [|fuel IH]; intros acc l c k Hf P; cbn [pread_dir pbind] in P.
    - apply path_bad in P. destruct P as (_ & P). discriminate.
    - unfold psys in P. cbn [pbind] in P. apply path_psys in P. destruct P as [(_ & P)|(a & l' & -> & P)]; [injection P as -> _; auto|]. destruct (Z.eqb_spec (a_ret a) 0) as [L|L].
      + cbn [pbind] in P. rewrite Hf in P. apply path_psys in P. destruct P as [(_ & P)|(a' & l'' & -> & P)]; [injection P as -> _; auto|]. apply path_done in P. destruct P as (_ & P). discriminate.
      + exact (IH _ _ _ _ Hf P).
  Qed.
  Lemma path_bind_sys {A C} (p : prog A) (f : A -> prog C) : (forall a, exists r, f a = PDone r) -> forall l c k, path (pbind p f) l (PSys c k) -> exists k', path p l (PSys c k').
  Proof.
    intros Hf. induction p as [a|o|c k IH|w k IH|w k IH]; intros l c' k' P; cbn [pbind] in P.
    - destruct (Hf a) as (r & Er). rewrite Er in P. apply path_done in P. destruct P as (_ & P). discriminate.
    - apply path_bad in P. destruct P as (_ & P). discriminate.
    - apply path_psys in P. destruct P as [(-> & P)|(a & l' & -> & P)]; [injection P as -> _; eexists; constructor|]. destruct (IH a _ _ _ P) as (k2 & X). exists k2. constructor. exact X.
    - apply path_psub in P. destruct P as [(_ & P)|(z & P)]; [discriminate|]. destruct (IH z _ _ _ P) as (k2 & X). exists k2. econstructor. exact X.
    - apply path_padd in P. destruct P as [(_ & P)|P]; [discriminate|]. destruct (IH _ _ _ P) as (k2 & X). exists k2. constructor. exact X.
  Qed.
  Lemma children_next fuel d ob l c k : path (prog_of dbg B strerror fuel (PChildren d) ob) l (PSys c k) ->
    l = [] /\ c = COpendir d \/ exists a0 l', l = (COpendir d, a0) :: l' /\ (c = CReaddir (a_val a0) \/ c = CClosedir (a_val a0)).
  Proof.
    cbn [prog_of]. intros P. 
    assert (P' : exists k', path (pget_children strerror fuel d) l (PSys c k')).
    { eapply path_bind_sys; [|exact P]. intros [st L]. eexists. reflexivity. }
    destruct P' as (k' & P1). unfold pget_children, psys in P1. cbn [pbind] in P1. apply path_psys in P1. destruct P1 as [(-> & P1)|(a & l' & -> & P1)]; [injection P1 as -> _; auto|]. right. exists a, l'. split; [reflexivity|].
    destruct (N.eqb_spec (a_val a) 0) as [Z|Z]; [apply path_done in P1; destruct P1 as (_ & P1); discriminate|].
    eapply (read_dir_next (a_val a) _ (fun r => r)); [|exact P1]. reflexivity.
  Qed.
End Prog.

(** ** The kernel *)
Lemma k_past v c a v' : kstep v (c, a) v' -> exists ext, v_past v' = ext ++ v_past v /\
  forall x d g, In x ext -> (lists x d g -> child v d g \/ child v' d g) /\ (child v d g -> child v' d g -> lists x d g).
Proof.
  intros K. assert (Same : v_past v' = v_past v -> exists ext, v_past v' = ext ++ v_past v /\
    forall x d g, In x ext -> (lists x d g -> child v d g \/ child v' d g) /\ (child v d g -> child v' d g -> lists x d g)).
  { intros E. exists []. split; [exact E|]. intros x d g []. }
  assert (One : v_past v' = v_name v :: v_past v -> exists ext, v_past v' = ext ++ v_past v /\
    forall x d g, In x ext -> (lists x d g -> child v d g \/ child v' d g) /\ (child v d g -> child v' d g -> lists x d g)).
  { intros E. exists [v_name v]. split; [exact E|]. intros x d g [<-|[]]. unfold child. auto. }
  inversion K; subst; try (apply Same; reflexivity); try (apply One; reflexivity).
  exists [upd eqs (v_name v) q (Some i); v_name v]. split; [reflexivity|]. intros x d g [<-|[<-|[]]]; unfold child; [|auto].
  unfold lists. cbn [with_name v_name]. unfold upd. split.
  - intros (N & L). destruct (eqs (dir_prefix d ++ g) q) as [E|Ne]; [|auto]. right. split; [exact N|]. destruct (eqs (dir_prefix d ++ g) p) as [E'|_]; [|exact L]. exfalso. congruence.
  - intros (N & L) _. split; [exact N|]. destruct (eqs (dir_prefix d ++ g) q); [discriminate|exact L].
Qed.

Lemma acts_more l r n : acts (l ++ r) n = acts r n ++ acts l n.
Proof. induction l as [|[[m x|m c a|m y] v] l IH]; cbn [app acts]; rewrite ?app_nil_r; auto. destruct (m =? n); rewrite IH, ?app_assoc; reflexivity. Qed.
(** The names delivered by readdir() from the stream [b]. *)
Definition one_name (b : N) (e : syscall * answer) : list str :=
  match fst e with CReaddir b' => if (b' =? b)%N && negb (a_ret (snd e) =? 0)%Z then [a_data (snd e)] else [] | _ => [] end.
Definition listed (b : N) (l : list (syscall * answer)) : list str := flat_map (one_name b) l.
Lemma listed_app b l r : listed b (l ++ r) = listed b l ++ listed b r.
Proof. apply flat_map_app. Qed.
Lemma listed_reads b l : (forall a, In a l -> a_ret a <> 0%Z) -> listed b (dir_reads b l) = map a_data l.
Proof.
  induction l as [|a l IH]; intros H; [reflexivity|]. cbn [dir_reads map listed flat_map]. unfold listed, dir_reads in IH. rewrite IH by (intros; apply H; right; assumption).
  unfold one_name. cbn [fst snd]. rewrite N.eqb_refl. destruct (Z.eqb_spec (a_ret a) 0) as [E|_]; [elim (H a (or_introl eq_refl) E)|reflexivity].
Qed.

Section Dir.
  Variable dbg : bool.
  Variable B : nat.
  Variable strerror : Z -> str.
  Variables (v0 : view) (lim0 : limits) (m0 : nat).
  Hypothesis S0 : forall fd, v_fd v0 fd <> None -> (0 <= fd)%Z.
  Notation cstep := (cstep dbg B strerror).
  Notation cruns := (cruns dbg B strerror v0 lim0 m0).
  Notation inv_runs := (inv_runs dbg B strerror v0 lim0 m0 S0).
  Notation did_runs := (did_runs dbg B strerror v0 lim0 m0 S0).
  Notation act_step := (act_step dbg B strerror v0 lim0 m0 S0).
  Notation back := (back dbg B strerror v0 lim0 m0 S0).
  Variables (n : nat) (d : str) (a0 : answer) (w0 : view) (earlier : trace).
  Let base : trace := (Act n (COpendir d) a0, w0) :: earlier.
  Hypothesis Call : call_no earlier n = Some (PChildren d).
  Hypothesis Opened : a_val a0 <> 0%N.
  Notation b := (a_val a0).

  (** at every moment since the directory was opened, at one of them *)
  Definition always (later : trace) (g : str) : Prop := forall l1 l2, later = l1 ++ l2 -> child (now v0 (l2 ++ base)) d g.
  Definition once (later : trace) (g : str) : Prop := exists l1 l2, later = l1 ++ l2 /\ child (now v0 (l2 ++ base)) d g.
  Lemma always_less e later g : always (e :: later) g -> always later g.
  Proof. intros A l1 l2 ->. apply (A (e :: l1)). reflexivity. Qed.
  Lemma once_more e later g : once later g -> once (e :: later) g.
  Proof. intros (l1 & l2 & -> & X). exists (e :: l1), l2. auto. Qed.
  Lemma always_now later g : always later g -> child (now v0 (later ++ base)) d g.
  Proof. intros A. apply (A []). reflexivity. Qed.
  Lemma once_now later g : child (now v0 (later ++ base)) d g -> once later g.
  Proof. intros A. exists [], later. auto. Qed.

  Record dinv (later : trace) : Prop := mk_dinv {
    d_own : dir_owner (later ++ base) b = Some n;
    d_str : v_dir (now v0 (later ++ base)) b = Some (mk_dstream d (length (v_past w0)) (listed b (acts later n)));
    d_past : exists ext, v_past (now v0 (later ++ base)) = ext ++ v_past w0 /\
      forall x g, In x ext -> (lists x d g -> once later g) /\ (always later g -> lists x d g);
    d_once : forall g, In g (listed b (acts later n)) -> dots g \/ once later g;
    d_count : forall g, dots g \/ always later g -> count_occ eqs (listed b (acts later n)) g <= 1;
    d_all : forall l a, acts later n = l ++ [(CReaddir b, a)] -> a_ret a = 0%Z -> a_errno a = 0%Z ->
      forall g, dots g \/ always later g -> In g (listed b (acts later n))
  }.

  Lemma call_base later cf : cruns (later ++ base) cf -> call_no (later ++ base) n = Some (PChildren d).
  Proof. intros R. eapply (call_later dbg B strerror v0 lim0 m0 S0); [exact R|exact Call]. Qed.
  Lemma acts_none cf : cruns base cf -> acts earlier n = [].
  Proof.
    intros R. change base with ([] ++ base) in R. destruct (act_step _ _ _ _ _ _ _ R) as (cf0 & t & x & k & R0 & Et & K). destruct (inv_runs _ _ R0) as (Rs & H). destruct (running _ _ _ _ _ _ _ _ _ _ H Et) as (_ & Cn).
    assert (x = PChildren d) by congruence. subst x. destruct (did_runs _ _ R0 _ _ _ _ Et) as (fuel & o & P & _ & _). apply children_next in P. destruct P as [(P & _)|(a1 & l' & _ & [P|P])]; [exact P|discriminate|discriminate].
  Qed.
  (** The next step of the call itself. *)
  Lemma own_next later c a w cf : cruns ((Act n c a, w) :: later ++ base) cf -> c = CReaddir b \/ c = CClosedir b.
  Proof.
    intros R. change (cruns ([] ++ (Act n c a, w) :: later ++ base) cf) in R. destruct (act_step _ _ _ _ _ _ _ R) as (cf0 & t & x & k & R0 & Et & K). destruct (inv_runs _ _ R0) as (Rs & H). destruct (running _ _ _ _ _ _ _ _ _ _ H Et) as (_ & Cn).
    rewrite (call_base _ _ R0) in Cn. injection Cn as <-. destruct (did_runs _ _ R0 _ _ _ _ Et) as (fuel & o & P & _ & _). apply children_next in P.
    assert (E : acts (later ++ base) n = (COpendir d, a0) :: acts later n).
    { rewrite acts_more. unfold base. cbn [acts]. rewrite Nat.eqb_refl. destruct (runs_prefix dbg B strerror v0 lim0 m0 later base _ R0) as (cf1 & R1). rewrite (acts_none _ R1). reflexivity. }
    rewrite E in P. destruct P as [(P & _)|(a1 & l' & P & X)]; [discriminate|]. injection P as <- _. exact X.
  Qed.
  (** No other call uses the stream. *)
  Lemma not_used later m c a w cf : cruns ((Act m c a, w) :: later ++ base) cf -> dir_owner (later ++ base) b = Some n -> m <> n -> uses_dir c <> Some b.
  Proof.
    intros R O Ne U. change (cruns ([] ++ (Act m c a, w) :: later ++ base) cf) in R. destruct (use_dir dbg B strerror v0 lim0 m0 S0 _ _ _ _ _ _ _ _ R U) as (m' & Om & En & _). rewrite O in Om. injection Om as <-.
    destruct En as [En|(x & Cx & Ox)]; [congruence|]. destruct (act_step _ _ _ _ _ _ _ R) as (cf0 & t & y & k & R0 & Et & K). destruct (inv_runs _ _ R0) as (Rs & H). destruct (running _ _ _ _ _ _ _ _ _ _ H Et) as (_ & Cn).
    assert (y = x) by congruence. subst y. destruct (o_on _ _ _ _ _ (oinv_runs dbg B strerror v0 lim0 m0 S0 _ _ R0) _ _ _ _ _ Et Ox) as (fuel & ob & _ & _ & (z & Cz & Oz) & _).
    rewrite (call_base _ _ R0) in Cz. injection Cz as <-. discriminate Oz.
  Qed.

  Lemma count_app_one (l : list str) x g : count_occ eqs (l ++ [x]) g = count_occ eqs l g + (if eqs x g then 1 else 0).
  Proof. rewrite count_occ_app. cbn [count_occ]. destruct (eqs x g); reflexivity. Qed.

  Lemma dinv_runs later cf : cruns (later ++ base) cf -> (forall a, ~ In (CClosedir b, a) (acts later n)) -> dinv later.
  Proof.
    revert cf. induction later as [|[l w] later IH]; intros cf R NC.
    - cbn [app] in R. destruct (back _ _ _ _ R) as (cf0 & R0 & K). 
      assert (E : w0 = with_dir (now v0 earlier) b (Some (mk_dstream d (length (v_past (now v0 earlier))) []))) by (inversion K; try discriminate; [congruence|reflexivity]).
      assert (Ep : v_past w0 = v_past (now v0 earlier)) by (rewrite E; reflexivity).
      constructor; cbn [app acts listed flat_map].
      + unfold base. cbn [dir_owner]. rewrite N.eqb_refl. destruct (N.eqb_spec b 0); [contradiction|reflexivity].
      + unfold base. cbn [now]. rewrite Ep. rewrite E. cbn [with_dir v_dir]. apply upd_same.
      + exists []. split; [reflexivity|]. intros x g [].
      + intros g [].
      + intros g _. cbn. lia.
      + intros l a X. destruct l; discriminate.
    - cbn [app] in R. destruct (back _ _ _ _ R) as (cf0 & R0 & K). destruct l as [m x|m c a|m r].
      1,3: subst w; destruct (IH _ R0 NC) as [I1 I2 (ext & I3 & I4) I5 I6 I7]; constructor; cbn [app now dir_owner acts]; auto;
        [exists ext; split; [exact I3|]; intros x' g X; destruct (I4 _ g X) as (Y1 & Y2); split; [intros Z; apply once_more; auto|intros Z; apply Y2; eapply always_less; exact Z]
        |intros g X; destruct (I5 _ X); [auto|right; apply once_more; assumption]
        |intros g [X|X]; apply I6; [auto|right; eapply always_less; exact X]
        |intros l a E1 E2 E3 g [X|X]; eapply I7; eauto; right; eapply always_less; exact X].
      assert (NC' : forall a', ~ In (CClosedir b, a') (acts later n)).
      { intros a' X. apply (NC a'). cbn [acts]. destruct (m =? n); [apply in_or_app; auto|exact X]. }
      destruct (IH _ R0 NC') as [I1 I2 (ext & I3 & I4) I5 I6 I7]. clear IH.
      destruct (k_past _ _ _ _ K) as (ext' & P1 & P2).
      assert (Past : exists ext, v_past w = ext ++ v_past w0 /\ forall x g, In x ext -> (lists x d g -> once ((Act m c a, w) :: later) g) /\ (always ((Act m c a, w) :: later) g -> lists x d g)).
      { exists (ext' ++ ext). split; [rewrite P1, I3, app_assoc; reflexivity|]. intros x g X. apply in_app_or in X. destruct X as [X|X].
        - destruct (P2 x d g X) as (Y1 & Y2). split.
          + intros L. destruct (Y1 L) as [Z|Z]; [apply once_more, once_now; exact Z|]. apply once_now. exact Z.
          + intros A. apply Y2; [apply always_now; eapply always_less; exact A|]. exact (always_now _ _ A).
        - destruct (I4 x g X) as (Y1 & Y2). split; [intros L; apply once_more; auto|intros A; apply Y2; eapply always_less; exact A]. }
      destruct (Nat.eq_dec m n) as [->|Ne].
      + destruct (own_next _ _ _ _ _ R) as [->| ->].
        2:{ exfalso. apply (NC a). cbn [acts]. rewrite Nat.eqb_refl. apply in_or_app. right. left. reflexivity. }
        assert (Acts : acts ((Act n (CReaddir b) a, w) :: later) n = acts later n ++ [(CReaddir b, a)]) by (cbn [acts]; rewrite Nat.eqb_refl; reflexivity).
        set (v := now v0 (later ++ base)) in *.
        assert (Since : names_since v (mk_dstream d (length (v_past w0)) (listed b (acts later n))) = v_name v :: ext).
        { unfold names_since. cbn [ds_since]. f_equal. rewrite I3, app_length, Nat.add_sub. rewrite firstn_app, Nat.sub_diag, firstn_O, app_nil_r. apply firstn_all. }
        assert (Alw : forall g, always ((Act n (CReaddir b) a, w) :: later) g -> there_always v (mk_dstream d (length (v_past w0)) (listed b (acts later n))) g).
        { intros g A names. rewrite Since. cbn [ds_path]. apply always_less in A. intros [<-|X]; [exact (always_now _ _ A)|]. exact (proj2 (I4 _ _ X) A). }
        assert (Cases : (a_ret a <> 0%Z /\ (dots (a_data a) \/ there_once v (mk_dstream d (length (v_past w0)) (listed b (acts later n))) (a_data a)) /\
             (In (a_data a) (listed b (acts later n)) -> ~ dots (a_data a) /\ ~ there_always v (mk_dstream d (length (v_past w0)) (listed b (acts later n))) (a_data a)) /\
             w = with_dir v b (Some (mk_dstream d (length (v_past w0)) (listed b (acts later n) ++ [a_data a])))) \/
           (a_ret a = 0%Z /\ w = v /\ (a_errno a = 0%Z -> forall g, dots g \/ there_always v (mk_dstream d (length (v_past w0)) (listed b (acts later n))) g -> In g (listed b (acts later n))))).
        { clearbody v. inversion K; subst; try discriminate; match goal with E : v_dir _ b = Some ?s |- _ => first [rewrite I2 in E; injection E as <-; cbn [ds_path ds_given ds_since] in *|idtac] | _ => idtac end; [left; auto|right; auto|right].
          split; [assumption|]. split; [reflexivity|]. intros E. contradiction. }
        destruct Cases as [(Ar & Hd & Rep & Ew)|(Ar & Ew & All)].
        * assert (Li : listed b (acts ((Act n (CReaddir b) a, w) :: later) n) = listed b (acts later n) ++ [a_data a]).
          { rewrite Acts, listed_app. cbn [listed flat_map]. unfold one_name. cbn [fst snd]. rewrite N.eqb_refl. destruct (Z.eqb_spec (a_ret a) 0); [contradiction|reflexivity]. }
          constructor; rewrite ?Li; cbn [app now].
          -- cbn [dir_owner]. exact I1.
          -- rewrite Ew. cbn [with_dir v_dir]. apply upd_same.
          -- exact Past.
          -- intros g X. apply in_app_or in X. destruct X as [X|[<-|[]]].
             ++ destruct (I5 _ X); [auto|right; apply once_more; assumption].
             ++ destruct Hd as [Hd|(names & X & Hl)]; [auto|]. right. rewrite Since in X. cbn [ds_path] in Hl. apply once_more. destruct X as [<-|X]; [apply once_now; exact Hl|exact (proj1 (I4 _ _ X) Hl)].
          -- intros g X. rewrite count_app_one. destruct (eqs (a_data a) g) as [E|_].
             ++ subst g. assert (Ni : ~ In (a_data a) (listed b (acts later n))).
                { intros Y. destruct (Rep Y) as (R1 & R2). destruct X as [X|X]; [exact (R1 X)|]. exact (R2 (Alw _ X)). }
                apply (count_occ_not_In eqs) in Ni. lia.
             ++ rewrite Nat.add_0_r. apply I6. destruct X as [X|X]; [auto|right; eapply always_less; exact X].
          -- intros l a' E Ar'. rewrite Acts in E. apply app_inj_tail in E. destruct E as (_ & E). injection E as <-. contradiction.
        * assert (Li : listed b (acts ((Act n (CReaddir b) a, w) :: later) n) = listed b (acts later n)).
          { rewrite Acts, listed_app. cbn [listed flat_map]. unfold one_name. cbn [fst snd]. rewrite N.eqb_refl, Ar. cbn [Z.eqb negb andb app]. apply app_nil_r. }
          constructor; rewrite ?Li; cbn [app now].
          -- cbn [dir_owner]. exact I1.
          -- rewrite Ew. exact I2.
          -- exact Past.
          -- intros g X. destruct (I5 _ X); [auto|right; apply once_more; assumption].
          -- intros g X. apply I6. destruct X as [X|X]; [auto|right; eapply always_less; exact X].
          -- intros l a' E Ar' Er g X. rewrite Acts in E. apply app_inj_tail in E. destruct E as (_ & E). injection E as <-. apply (All Er). destruct X as [X|X]; [auto|right; exact (Alw _ X)].
      + pose proof (not_used _ _ _ _ _ _ R I1 Ne) as U.
        assert (Acts : acts ((Act m c a, w) :: later) n = acts later n) by (cbn [acts]; destruct (Nat.eqb_spec m n); [contradiction|reflexivity]).
        assert (Fn : dir_new c a b = false).
        { destruct (dir_new c a b) eqn:Fn; [|reflexivity]. exfalso. destruct c; try discriminate Fn. cbn [dir_new] in Fn. apply andb_true_iff in Fn. destruct Fn as (F1 & F2). apply N.eqb_eq in F1.
          inversion K; try discriminate; congruence. }
        constructor; rewrite ?Acts; cbn [app now].
        * destruct c; cbn [dir_owner dir_new uses_dir] in *; auto.
          -- rewrite Fn. exact I1.
          -- match goal with |- context [(?z =? b)%N] => destruct (N.eqb_spec z b) end; [congruence|exact I1].
        * rewrite (k_dir _ _ _ _ K _ U Fn). exact I2.
        * exact Past.
        * intros g X. destruct (I5 _ X); [auto|right; apply once_more; assumption].
        * intros g X. apply I6. destruct X as [X|X]; [auto|right; eapply always_less; exact X].
        * intros l a' E1 E2 E3 g [X|X]; eapply I7; eauto. right; eapply always_less; exact X.
  Qed.
End Dir.
