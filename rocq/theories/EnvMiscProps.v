(** EnvMiscProps.v -- C87: the calls of the in-memory environment that are not about
    files; C88: EnvWapper, ErrorEnv, the default NewAppendableFile and Log. *)
From Coq Require Import List Arith NArith ZArith Lia Bool.
From Verif Require Import Outcome Status MemEnv EnvUtil EnvMisc.
Import ListNotations.

(** ** Specification *)
(** What an environment answers to a list of calls, one after the other. *)
Fixpoint answers {S} (env : S -> ecall -> S * eres) (s : S) (l : list ecall) : S * list eres :=
  match l with
  | [] => (s, [])
  | c :: l' => let (s1, r) := env s c in let (s2, rs) := answers env s1 l' in (s2, r :: rs)
  end.
(** A call that makes a file to write to, and its name. *)
Definition makes_writable (c : ecall) : option str :=
  match c with ENewWritable f | ENewAppendable f => Some f | _ => None end.
(** Of a test's doings on an ErrorEnv whose flag is [on]: the calls that must reach
    the target, and the number of the others. *)
Fixpoint reaching (on : bool) (l : list xop) : list ecall :=
  match l with
  | [] => []
  | XSet b :: l' => reaching b l'
  | XCall c :: l' => match on, makes_writable c with true, Some _ => reaching on l' | _, _ => c :: reaching on l' end
  end.
Fixpoint refused (on : bool) (l : list xop) : nat :=
  match l with
  | [] => 0
  | XSet b :: l' => refused b l'
  | XCall c :: l' => match on, makes_writable c with true, Some _ => 1 | _, _ => 0 end + refused on l'
  end.
(** The answers: the target's, with an error "<name>: fake error" and a null file in
    the place of each refused call. *)
Fixpoint with_errors (on : bool) (l : list xop) (from_target : list eres) : list eres :=
  match l with
  | [] => []
  | XSet b :: l' => with_errors b l' from_target
  | XCall c :: l' =>
      match on, makes_writable c, from_target with
      | true, Some f, _ => mk_eres (SErr IOError f msg_fake) PNull 0 false [] [] :: with_errors on l' from_target
      | _, _, r :: rs => r :: with_errors on l' rs
      | _, _, [] => []
      end
  end.
Definition flag_after (on : bool) (l : list xop) : bool := fold_left (fun on o => match o with XSet b => b | XCall _ => on end) l on.

(** ** C88 *)
Theorem C88_wrapper_forwards : forall S (target : S -> ecall -> S * eres) s l,
  answers (wrapper S target) s l = answers target s l.
Proof.
  intros S target s l. revert s. induction l as [|c l IH]; intros s; [reflexivity|]. cbn [answers].
  assert (E : wrapper S target s c = target s c) by (destruct c; reflexivity). rewrite E. destruct (target s c) as (s1, r). now rewrite IH.
Qed.

Lemma fwd_eq {S} (target : S -> ecall -> S * eres) e c : x_on e = false \/ makes_writable c = None ->
  error_env S target e c = (mk_xenv (fst (target (x_target e) c)) (x_on e) (x_errors e), snd (target (x_target e) c)).
Proof. intros [H|H]; destruct c; try discriminate H; cbn; rewrite ?H; destruct (target _ _); reflexivity. Qed.
Lemma refuse_eq {S} (target : S -> ecall -> S * eres) e c f : x_on e = true -> makes_writable c = Some f ->
  error_env S target e c = (mk_xenv (x_target e) true (x_errors e + 1), mk_eres (SErr IOError f msg_fake) PNull 0 false [] []).
Proof. intros H M. destruct c; try discriminate M; cbn [makes_writable] in M; assert (f0 = f) by congruence; subst f0; cbn [error_env]; rewrite H; reflexivity. Qed.

Theorem C88_error_env : forall S (target : S -> ecall -> S * eres) e l,
  let '(e', rs) := xrun S target e l in
  let '(s', ts) := answers target (x_target e) (reaching (x_on e) l) in
  x_target e' = s' /\ rs = with_errors (x_on e) l ts /\
  x_errors e' = x_errors e + refused (x_on e) l /\ x_on e' = flag_after (x_on e) l.
Proof.
  intros S target e l. revert e. induction l as [|o l IH]; intros e.
  - cbn. auto.
  - cbn [xrun]. destruct o as [c|b].
    + cbn [xstep]. destruct (makes_writable c) as [f|] eqn:M; [destruct (x_on e) eqn:On|].
      * rewrite (refuse_eq target e c f On M). specialize (IH (mk_xenv (x_target e) true (x_errors e + 1))). destruct (xrun S target _ l) as (e', rs).
        cbn [reaching refused with_errors flag_after fold_left x_on x_target x_errors] in *. rewrite M. destruct (answers target _ _) as (s', ts). destruct IH as (A & B & C & D). split; [exact A|]. split; [cbn; congruence|]. split; [lia|exact D].
      * rewrite (fwd_eq target e c (or_introl On)). rewrite On. specialize (IH (mk_xenv (fst (target (x_target e) c)) false (x_errors e))). destruct (xrun S target _ l) as (e', rs).
        cbn [reaching refused with_errors flag_after fold_left x_on x_target x_errors answers] in *. destruct (target (x_target e) c) as (s1, r). cbn [fst snd] in *. destruct (answers target s1 _) as (s', ts). destruct IH as (A & B & C & D). split; [exact A|]. split; [cbn; congruence|]. split; [lia|exact D].
      * rewrite (fwd_eq target e c (or_intror M)). specialize (IH (mk_xenv (fst (target (x_target e) c)) (x_on e) (x_errors e))). destruct (xrun S target _ l) as (e', rs).
        cbn [reaching refused with_errors flag_after fold_left x_on x_target x_errors] in *. rewrite M.
        assert (Eq : (if x_on e then c :: reaching (x_on e) l else c :: reaching (x_on e) l) = c :: reaching (x_on e) l) by (destruct (x_on e); reflexivity).
        destruct (x_on e) eqn:On; cbn [answers]; destruct (target (x_target e) c) as (s1, r); cbn [fst snd] in *; destruct (answers target s1 _) as (s', ts); destruct IH as (A & B & C & D); (split; [exact A|]; split; [cbn; congruence|]; split; [lia|exact D]).
    + cbn [xstep]. specialize (IH (mk_xenv (x_target e) b (x_errors e))). destruct (xrun S target _ l) as (e', rs). cbn [reaching refused with_errors flag_after fold_left x_on x_target x_errors] in *. destruct (answers target _ _) as (s', ts). exact IH.
Qed.

(** Log: one call of Logv on the logger that is there, none without one. *)
Theorem C88_log : forall o fmt, Log (PObj o) fmt = Ret [(o, fmt)] /\ Log PNull fmt = Ret [].
Proof. intros. split; reflexivity. Qed.
(** An environment that does not override NewAppendableFile says so ... *)
Theorem C88_default_appendable : forall f, r_status (default_new_appendable f) = SErr NotSupported [78; 101; 119; 65; 112; 112; 101; 110; 100; 97; 98; 108; 101; 70; 105; 108; 101]%N f.
Proof. reflexivity. Qed.
(** ... but does not, as env.h:88 promises, store nullptr in [*result]: "On
    failure stores nullptr in *result and returns non-OK" *)
Theorem C88_appendable_null_refuted :
  ~ (forall f, r_status (default_new_appendable f) <> SOk -> r_ptr (default_new_appendable f) = PNull).
Proof. intros H. specialize (H [] ltac:(discriminate)). discriminate H. Qed.
Print Assumptions C88_wrapper_forwards.
Print Assumptions C88_error_env.
Print Assumptions C88_log.
Print Assumptions C88_default_appendable.
Print Assumptions C88_appendable_null_refuted.

(** A target that counts its calls. *)
Definition counting (s : nat) (c : ecall) : nat * eres := (s + 1, mk_eres SOk (PObj s) (N.of_nat s) true [] []).
Definition name_a : str := [97]%N.
Example C88_case :
  answers (wrapper nat counting) 3 [EExists name_a; ENowMicros] = (5, [snd (counting 3 (EExists name_a)); snd (counting 4 ENowMicros)]) /\
  xrun nat counting (mk_xenv 0 false 0) [XCall (ENewWritable name_a); XSet true; XCall (ENewAppendable name_a); XCall (EExists name_a); XCall (ENewWritable name_a); XSet false; XCall (ENewAppendable name_a)]
  = (mk_xenv 3 false 2,
     [snd (counting 0 ENowMicros); mk_eres (SErr IOError name_a msg_fake) PNull 0 false [] []; snd (counting 1 ENowMicros);
      mk_eres (SErr IOError name_a msg_fake) PNull 0 false [] []; snd (counting 2 ENowMicros)]).
Proof. split; reflexivity. Qed.

(** ** C87 *)
Section C87.
  Variable S : Type.
  Variable base : S -> ecall -> S * eres.
  (** A history (newest first): a lock was granted and has not been given back. *)
  Definition granted (h : list (ecall * eres)) (l : nat) : Prop := exists f r, In (ELock f, r) h /\ r_ptr r = PObj l.
  Definition given_back (h : list (ecall * eres)) (l : nat) : Prop := exists r, In (EUnlock l, r) h.
  (** calls that are the base environment's business *)
  Definition for_base (c : ecall) : bool := match c with ESchedule _ _ | EStartThread _ _ | ENowMicros | ESleep _ => true | _ => false end.
  Definition answer_ok (cr : ecall * eres) : Prop :=
    match fst cr with
    | ECreateDir _ | ERemoveDir _ | EUnlock _ => r_status (snd cr) = SOk
    | ELock _ | ENewLogger _ => r_status (snd cr) = SOk /\ exists o, r_ptr (snd cr) = PObj o
    | ETestDirectory => r_status (snd cr) = SOk /\ r_str (snd cr) = [47; 116; 101; 115; 116]%N
    | _ => True
    end.

  Definition fresh : S -> nenv S := fun s => mk_nenv s [] [] 0.
  Lemma nruns_inv s h e : nruns S base (fresh s) h e ->
    (forall l, In l (n_locks e) <-> granted h l /\ ~ given_back h l) /\
    (forall l, granted h l -> l < n_next e) /\ (forall l, given_back h l -> granted h l) /\
    Forall answer_ok h /\
    answers base s (rev (filter for_base (map fst h))) = (n_base e, rev (map snd (filter (fun cr => for_base (fst cr)) h))).
  Proof.
    remember (fresh s) as e0 eqn:E0. intros R. induction R as [|h e c e' r R IH Ec]; subst.
    { cbn. split; [|split; [|split; [|split; [constructor|reflexivity]]]].
      - intros l. split; [intros []|]. intros ((f & r & [] & _) & _).
      - intros l (f & r & [] & _).
      - intros l (r & []). }
    destruct IH as (A & B & C & D & F).
    assert (answers_app : forall s l1 l2, answers base s (l1 ++ l2) = let (s1, r1) := answers base s l1 in let (s2, r2) := answers base s1 l2 in (s2, r1 ++ r2)).
    { clear. intros s l1. revert s. induction l1 as [|c l1 IH]; intros s l2; cbn [app answers]; [destruct (answers base s l2); reflexivity|]. destruct (base s c) as (s1, r). rewrite IH. destruct (answers base s1 l1) as (s2, r1). destruct (answers base s2 l2). reflexivity. }
    assert (Other : (forall f, c <> ELock f) -> (forall l, c <> EUnlock l) -> n_locks e' = n_locks e -> n_next e <= n_next e' ->
              (forall l, In l (n_locks e') <-> granted ((c, r) :: h) l /\ ~ given_back ((c, r) :: h) l) /\
              (forall l, granted ((c, r) :: h) l -> l < n_next e') /\ (forall l, given_back ((c, r) :: h) l -> granted ((c, r) :: h) l)).
    { intros NL NU El En.
      assert (G : forall l, granted ((c, r) :: h) l <-> granted h l).
      { intros l. split; intros (f & r' & I1 & I2); [destruct I1 as [I1|I1]; [exfalso; apply (NL f); congruence|]|]; exists f, r'; cbn; auto. }
      assert (Gb : forall l, given_back ((c, r) :: h) l <-> given_back h l).
      { intros l. split; intros (r' & I1); [destruct I1 as [I1|I1]; [exfalso; apply (NU l); congruence|]|]; exists r'; cbn; auto. }
      split; [|split].
      - intros l. rewrite G, Gb, El. apply A.
      - intros l Hl. apply G, B in Hl. lia.
      - intros l. rewrite G, Gb. apply C. }
    destruct c; cbn [mem_misc] in Ec; try discriminate Ec.
    - (* CreateDir *)
      assert (e' = e /\ r = res_of SOk PUnset) as (-> & ->) by (split; congruence).
      destruct Other as (O1 & O2 & O3); [congruence|congruence|reflexivity|apply le_n|]. repeat (split; [solve [auto]|]). split; [constructor; [reflexivity|exact D]|exact F].
    - assert (e' = e /\ r = res_of SOk PUnset) as (-> & ->) by (split; congruence).
      destruct Other as (O1 & O2 & O3); [congruence|congruence|reflexivity|apply le_n|]. repeat (split; [solve [auto]|]). split; [constructor; [reflexivity|exact D]|exact F].
    - (* Lock *)
      remember (n_next e) as k eqn:Ek.
      assert (e' = mk_nenv (n_base e) (k :: n_locks e) (n_loggers e) (k + 1) /\ r = res_of SOk (PObj k)) as (-> & ->) by (split; congruence).
      assert (G : forall l, granted ((ELock f, res_of SOk (PObj k)) :: h) l <-> l = k \/ granted h l).
      { intros l. split.
        - intros (f' & r' & I1 & I2). destruct I1 as [I1|I1]; [left; assert (r' = res_of SOk (PObj k)) by congruence; subst r'; cbn in I2; congruence|right; exists f', r'; auto].
        - intros [->|(f' & r' & I1 & I2)]; [exists f, (res_of SOk (PObj k)); cbn; auto|exists f', r'; cbn; auto]. }
      assert (Gb : forall l, given_back ((ELock f, res_of SOk (PObj k)) :: h) l <-> given_back h l).
      { intros l. split; intros (r' & I1); [destruct I1 as [I1|I1]; [discriminate I1|]|]; exists r'; cbn; auto. }
      split; [|split; [|split; [|split]]].
      + intros l. rewrite G, Gb. cbn [n_locks In]. rewrite A. split.
        * intros [<-|(H1 & H2)]; [|auto]. split; [auto|]. intros H. apply C, B in H. lia.
        * intros ([->|H1] & H2); auto.
      + intros l Hl. apply G in Hl. cbn [n_next]. destruct Hl as [->|Hl]; [lia|]. apply B in Hl. lia.
      + intros l. rewrite G, Gb. auto.
      + constructor; [|exact D]. cbn. split; [reflexivity|]. eexists; reflexivity.
      + exact F.
    - (* Unlock *)
      destruct (existsb (Nat.eqb l) (n_locks e)) eqn:Ex; [|discriminate Ec].
      remember (filter (fun l' => negb (l =? l')) (n_locks e)) as ls eqn:Els.
      assert (e' = mk_nenv (n_base e) ls (n_loggers e) (n_next e) /\ r = res_of SOk PUnset) as (-> & ->) by (split; congruence). subst ls.
      assert (Il : In l (n_locks e)). { apply existsb_exists in Ex. destruct Ex as (x & I1 & I2). apply Nat.eqb_eq in I2. congruence. }
      assert (G : forall l', granted ((EUnlock l, res_of SOk PUnset) :: h) l' <-> granted h l').
      { intros l'. split; intros (f & r' & I1 & I2); [destruct I1 as [I1|I1]; [discriminate I1|]|]; exists f, r'; cbn; auto. }
      assert (Gb : forall l', given_back ((EUnlock l, res_of SOk PUnset) :: h) l' <-> l' = l \/ given_back h l').
      { intros l'. split.
        - intros (r' & I1). destruct I1 as [I1|I1]; [left; congruence|right; exists r'; auto].
        - intros [->|(r' & I1)]; [exists (res_of SOk PUnset); cbn; auto|exists r'; cbn; auto]. }
      split; [|split; [|split; [|split]]].
      + intros l'. rewrite G, Gb. cbn [n_locks]. rewrite filter_In, A. destruct (Nat.eqb_spec l l') as [->|N]; cbn; split.
        * intros (_ & H). discriminate H.
        * intros (_ & H). exfalso. apply H. auto.
        * intros ((H1 & H2) & _). split; [exact H1|]. intros [->|H]; auto.
        * intros (H1 & H2). split; [|reflexivity]. auto.
      + intros l'. rewrite G. apply B.
      + intros l'. rewrite G, Gb. intros [->|H]; [|auto]. apply A. exact Il.
      + constructor; [reflexivity|exact D].
      + exact F.
    - (* Schedule *)
      destruct (base (n_base e) (ESchedule fn arg)) as (s1, r1) eqn:Eb. change (wrapper S base (n_base e) (ESchedule fn arg)) with (base (n_base e) (ESchedule fn arg)) in Ec. rewrite Eb in Ec.
      assert (e' = mk_nenv s1 (n_locks e) (n_loggers e) (n_next e) /\ r = r1) as (-> & ->) by (split; congruence).
      destruct Other as (O1 & O2 & O3); [congruence|congruence|reflexivity|apply le_n|]. repeat (split; [solve [auto]|]). split; [constructor; [exact Logic.I|exact D]|].
      cbn [map fst filter for_base rev snd n_base]. rewrite answers_app, F. cbn [answers]. rewrite Eb. reflexivity.
    - destruct (base (n_base e) (EStartThread fn arg)) as (s1, r1) eqn:Eb. change (wrapper S base (n_base e) (EStartThread fn arg)) with (base (n_base e) (EStartThread fn arg)) in Ec. rewrite Eb in Ec.
      assert (e' = mk_nenv s1 (n_locks e) (n_loggers e) (n_next e) /\ r = r1) as (-> & ->) by (split; congruence).
      destruct Other as (O1 & O2 & O3); [congruence|congruence|reflexivity|apply le_n|]. repeat (split; [solve [auto]|]). split; [constructor; [exact Logic.I|exact D]|].
      cbn [map fst filter for_base rev snd n_base]. rewrite answers_app, F. cbn [answers]. rewrite Eb. reflexivity.
    - assert (e' = e /\ r = mk_eres SOk PUnset 0 false [] test_dir) as (-> & ->) by (split; congruence).
      destruct Other as (O1 & O2 & O3); [congruence|congruence|reflexivity|apply le_n|]. repeat (split; [solve [auto]|]). split; [constructor; [split; reflexivity|exact D]|exact F].
    - remember (n_next e) as k eqn:Ek.
      assert (e' = mk_nenv (n_base e) (n_locks e) (k :: n_loggers e) (k + 1) /\ r = res_of SOk (PObj k)) as (-> & ->) by (split; congruence).
      destruct Other as (O1 & O2 & O3); [congruence|congruence|reflexivity|cbn [n_next]; lia|]. repeat (split; [solve [auto]|]). split; [constructor; [split; [reflexivity|eexists; reflexivity]|exact D]|exact F].
    - destruct (base (n_base e) ENowMicros) as (s1, r1) eqn:Eb. change (wrapper S base (n_base e) ENowMicros) with (base (n_base e) ENowMicros) in Ec. rewrite Eb in Ec.
      assert (e' = mk_nenv s1 (n_locks e) (n_loggers e) (n_next e) /\ r = r1) as (-> & ->) by (split; congruence).
      destruct Other as (O1 & O2 & O3); [congruence|congruence|reflexivity|apply le_n|]. repeat (split; [solve [auto]|]). split; [constructor; [exact Logic.I|exact D]|].
      cbn [map fst filter for_base rev snd n_base]. rewrite answers_app, F. cbn [answers]. rewrite Eb. reflexivity.
    - destruct (base (n_base e) (ESleep micros)) as (s1, r1) eqn:Eb. change (wrapper S base (n_base e) (ESleep micros)) with (base (n_base e) (ESleep micros)) in Ec. rewrite Eb in Ec.
      assert (e' = mk_nenv s1 (n_locks e) (n_loggers e) (n_next e) /\ r = r1) as (-> & ->) by (split; congruence).
      destruct Other as (O1 & O2 & O3); [congruence|congruence|reflexivity|apply le_n|]. repeat (split; [solve [auto]|]). split; [constructor; [exact Logic.I|exact D]|].
      cbn [map fst filter for_base rev snd n_base]. rewrite answers_app, F. cbn [answers]. rewrite Eb. reflexivity.
  Qed.
End C87.
Arguments fresh {S}.

(** In every history of these calls: directories, locks, loggers and the test
    directory are granted ... *)
Theorem C87_always_ok : forall S (base : S -> ecall -> S * eres) s h e c r, nruns S base (fresh s) h e -> In (c, r) h -> answer_ok (c, r).
Proof. intros S base s h e c r R I0. destruct (nruns_inv S base s h e R) as (_ & _ & _ & D & _). rewrite Forall_forall in D. exact (D _ I0). Qed.
(** ... a lock can be given back once, ... *)
Theorem C87_unlock : forall S (base : S -> ecall -> S * eres) s h e l, nruns S base (fresh s) h e ->
  (granted h l /\ ~ given_back h l -> exists e' r, mem_misc S base e (EUnlock l) = Some (Ret (e', r)) /\ r_status r = SOk) /\
  (~ granted h l \/ given_back h l -> mem_misc S base e (EUnlock l) = Some UB).
Proof.
  intros S base s h e l R. destruct (nruns_inv S base s h e R) as (A & _). cbn [mem_misc]. destruct (existsb (Nat.eqb l) (n_locks e)) eqn:Ex.
  - apply existsb_exists in Ex. destruct Ex as (x & I1 & I2). apply Nat.eqb_eq in I2. subst x. apply A in I1. split; [intros _; do 2 eexists; split; reflexivity|]. tauto.
  - split; [|reflexivity]. intros H. apply A in H. assert (existsb (Nat.eqb l) (n_locks e) = true); [|congruence]. apply existsb_exists. exists l. split; [exact H|apply Nat.eqb_refl].
Qed.
(** ... and the base environment gets exactly the calls about threads and time, in
    order, whose answers are passed on. *)
Theorem C87_base : forall S (base : S -> ecall -> S * eres) s h e, nruns S base (fresh s) h e ->
  answers base s (rev (filter for_base (map fst h))) = (n_base e, rev (map snd (filter (fun cr => for_base (fst cr)) h))).
Proof. intros S base s h e R. apply (nruns_inv S base s h e R). Qed.
(** The logger it hands out writes nothing. *)
Theorem C87_logger_writes_nothing : forall fmts, flat_map noop_logv fmts = [].
Proof. induction fmts; cbn; auto. Qed.
(** env.h:136: "If somebody else already holds the lock, finishes immediately
    with a failure".  Here nobody is ever refused: two callers hold a lock of the
    same name at once. *)
Theorem C87_lock_excludes_refuted :
  ~ (forall S (base : S -> ecall -> S * eres) s h e f r1 l1 r2 l2, nruns S base (fresh s) ((ELock f, r2) :: h) e ->
       In (ELock f, r1) h -> r_ptr r1 = PObj l1 -> ~ given_back h l1 -> r_status r2 = SOk -> r_ptr r2 = PObj l2 -> False).
Proof.
  intros H. refine (H nat counting 0 [(ELock name_a, res_of SOk (PObj 0))] (mk_nenv 0 [1; 0] [] 2) name_a (res_of SOk (PObj 0)) 0 (res_of SOk (PObj 1)) 1 _ _ eq_refl _ eq_refl eq_refl).
  - eapply (nr_call _ _ _ _ (mk_nenv 0 [0] [] 1)); [eapply (nr_call _ _ _ _ (mk_nenv 0 [] [] 0)); [constructor|reflexivity]|reflexivity].
  - left. reflexivity.
  - intros (r & [I0|[]]). discriminate I0.
Qed.
Print Assumptions C87_always_ok.
Print Assumptions C87_unlock.
Print Assumptions C87_base.
Print Assumptions C87_logger_writes_nothing.
Print Assumptions C87_lock_excludes_refuted.
Example C87_case : exists e, nruns nat counting (fresh 7)
  [(EUnlock 0, res_of SOk PUnset); (ENowMicros, snd (counting 7 ENowMicros)); (ELock name_a, res_of SOk (PObj 1)); (ELock name_a, res_of SOk (PObj 0))] e /\
  n_locks e = [1] /\ n_base e = 8.
Proof.
  eexists. split.
  - eapply nr_call; [eapply nr_call; [eapply nr_call; [eapply nr_call; [constructor|reflexivity]|reflexivity]|reflexivity]|reflexivity].
  - split; reflexivity.
Qed.
