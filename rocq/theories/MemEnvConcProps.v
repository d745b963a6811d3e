(** MemEnvConcProps.v -- property theorems C73, and C50 and C51 with several
    threads.  They range over any number of threads, every schedule, every
    allocator returning fresh non-null addresses, builds with and without
    assertions, and every choice of calls keeping the rules of MemEnvConc.v
    (file objects are used while they live, as what they are; sequential files
    and deletions not at the same time as another call on the object). *)
From Coq Require Import List Arith NArith ZArith Lia Bool.
From Verif Require Import Outcome Heap Status MemEnv MemEnvSpec MemEnvMem MemEnvMap MemEnvProofs MemEnvProps MemEnvConc MemEnvConcProofs.
Import ListNotations.
Local Open Scope outcome_scope.

Definition cexec (alc alb : allocator) (dbg : bool) (n : nat) (tr : trace) (cf : cconf) : Prop :=
  allocator_ok alc /\ allocator_ok alb /\ cruns alc alb dbg n tr cf.

(** C73: every call takes effect once, between its beginning and its return ... *)
Theorem C73_every_call_takes_effect_once :
  forall alc alb dbg n tr cf t, cexec alc alb dbg n tr cf -> thread_ok (proj t tr).
Proof. intros alc alb dbg n tr cf t (A1 & A2 & R). eapply run_thread_ok; eauto. Qed.
Print Assumptions C73_every_call_takes_effect_once.

(** ... and returns what it returns when the calls are made one after the other
    in the order in which they take effect; except that a Skip may return OK
    although another thread's truncation left its reader beyond the end. *)
Theorem C73_results_are_sequential :
  forall alc alb dbg n tr cf, cexec alc alb dbg n tr cf ->
    forall new t ev old, tr = new ++ (t, Sec ev) :: old ->
      Expect (sections old) (ev_call ev) (ev_res ev) \/ raced t old ev.
Proof. intros alc alb dbg n tr cf (A1 & A2 & R). apply (run_events alc alb dbg A1 A2 n tr cf R). Qed.
Print Assumptions C73_results_are_sequential.

(** No call gets stuck: nothing undefined is executed (a step that would access
    freed memory, free twice or fail an assertion does not exist in the model, so
    the thread could not go on) and there is no deadlock: a thread inside a call
    can go on, or its arguments are out of range, or it waits for mutex_ and the
    holder can go on or is out of range. *)
Definition moves alc alb dbg (tr : trace) (cf : cconf) (t : nat) : Prop :=
  (exists o cf', cstep alc alb dbg (sections tr) t cf o cf') \/
  (exists x, (nth_error (ct cf) t = Some (Called x) \/ nth_error (ct cf) t = Some (Inside x)) /\ ~ in_range (sections tr) x).
Theorem C73_no_undefined_behaviour_no_deadlock :
  forall alc alb dbg n tr cf t p, cexec alc alb dbg n tr cf -> nth_error (ct cf) t = Some p -> p <> Idle ->
    moves alc alb dbg tr cf t \/
    exists x u, p = Called x /\ locked x = true /\ cmu cf = Some u /\ u <> t /\ moves alc alb dbg tr cf u.
Proof.
  intros alc alb dbg n tr cf t p (A1 & A2 & R) Et Np.
  destruct (can_step alc alb dbg A1 A2 n tr cf t p R Et Np) as [K|[(x & [-> | ->] & Hr)|(x & u & q & -> & Lx & Mu & Eu & Hq)]].
  - left. left. exact K.
  - left. right. eauto.
  - left. right. eauto.
  - right. exists x, u. split; [reflexivity|]. split; [exact Lx|]. split; [exact Mu|]. split.
    + intros ->. rewrite Et in Eu. inversion Eu; subst q. discriminate.
    + assert (Nq : q <> Idle) by (intros ->; discriminate).
      destruct (can_step alc alb dbg A1 A2 n tr cf u q R Eu Nq) as [K|[(y & [-> | ->] & Hr)|(y & v & q' & -> & _)]].
      * left. exact K.
      * right. eauto.
      * right. eauto.
      * discriminate.
Qed.
Print Assumptions C73_no_undefined_behaviour_no_deadlock.

(** C50 with threads: when no call is going on, every FileState belongs to the
    map or an open file object, every array to a FileState, the open objects are
    the live ones; and destroying everything frees everything exactly once. *)
Theorem C50_memory_is_owned_with_threads :
  forall alc alb dbg n tr cf, cexec alc alb dbg n tr cf -> (forall t p, nth_error (ct cf) t = Some p -> p = Idle) ->
    owned (sections tr) (ce cf).
Proof.
  intros alc alb dbg n tr cf (A1 & A2 & R) Q. destruct (run_quiet alc alb dbg A1 A2 n tr cf R Q) as (I & V). exact (inv_owned _ _ I V).
Qed.
Print Assumptions C50_memory_is_owned_with_threads.
Theorem C50_nothing_leaks_with_threads :
  forall alc alb dbg n tr cf l, cexec alc alb dbg n tr cf -> (forall t p, nth_error (ct cf) t = Some p -> p = Idle) ->
    NoDup l -> (forall h, In h l <-> exists k i, live (sections tr) h k i) ->
    (exists e1 e2, env_dtor dbg (ce cf) = Ret e1 /\ delete_all dbg e1 l = Ret e2 /\ m_files (e_mem e2) = [] /\ m_blocks (e_mem e2) = []) /\
    (exists e1 e2, delete_all dbg (ce cf) l = Ret e1 /\ env_dtor dbg e1 = Ret e2 /\ m_files (e_mem e2) = [] /\ m_blocks (e_mem e2) = []).
Proof.
  intros alc alb dbg n tr cf l (A1 & A2 & R) Q ND Hl. destruct (run_quiet alc alb dbg A1 A2 n tr cf R Q) as (I & V).
  exact (inv_leak_free dbg _ _ I l V ND Hl).
Qed.
Print Assumptions C50_nothing_leaks_with_threads.

(** C51 with threads: a Skip that returns OK moves the reader by min(n, rest), or
    a truncation by another thread came in between and it moves it by n (modulo
    2^64, and to the end of the file for the n that would bring it round to
    there).  [pos] is where the next Read starts (C73). *)
Theorem C51_skip_with_threads :
  forall alc alb dbg n tr cf, cexec alc alb dbg n tr cf ->
    forall new t h k old, tr = new ++ (t, Sec (mk_event (SSkip h k) (RStat SOk))) :: old ->
    let H := sections old in let H' := sections ((t, Sec (mk_event (SSkip h k) (RStat SOk))) :: old) in
    exists i, live H h KSeq i /\
      (((pos H h <= fsize H i)%N /\ pos H' h = (pos H h + N.min k (fsize H i - pos H h))%N) \/
       (raced t old (mk_event (SSkip h k) (RStat SOk)) /\ (fsize H i < pos H h)%N /\
        pos H' h = if (k <=? fsize H i + 2 ^ 64 - pos H h)%N then ((pos H h + k) mod 2 ^ 64)%N else fsize H i)).
Proof.
  intros alc alb dbg n tr cf (A1 & A2 & R) new t h k old E H H'.
  assert (Ep : forall i, live H h KSeq i -> pos H' h = skipped (pos H h) k (fsize H i)).
  { intros i (L & _). unfold H', H in *. cbn [sections flat_map snd app pos ev_call ev_res]. fold (sections old). now rewrite Nat.eqb_refl, L. }
  destruct (run_events alc alb dbg A1 A2 n tr cf R new t _ old E) as [(i & L & X)|Rc].
  - fold H in L, X. cbn [ev_res] in X. exists i. split; [exact L|]. left.
    destruct (N.ltb_spec (fsize H i) (pos H h)) as [Q|Q]; [discriminate|]. split; [exact Q|].
    rewrite (Ep i L). unfold skipped. apply N.leb_le in Q. now rewrite Q.
  - pose proof Rc as (h1 & k1 & i & Ev & L & Hlt & _). inversion Ev; subst h1 k1. fold H in L, Hlt.
    exists i. split; [exact L|]. right. split; [exact Rc|]. split; [exact Hlt|].
    rewrite (Ep i L). unfold skipped. apply N.leb_gt in Hlt. now rewrite Hlt.
Qed.
Print Assumptions C51_skip_with_threads.

(** ** Executable runs *)
Lemma live_inj H h k i k' i' : live H h k i -> live H h k' i' -> i = i'.
Proof. intros L L'. now destruct (live_fun _ _ _ _ _ _ L L'). Qed.
Lemma legal_use H x : legal H x -> may_use H x /\ in_range H x.
Proof.
  destruct x; cbn [legal may_use in_range]; intros L; auto. destruct L as (i & L & K). split; [eauto|].
  intros j L'. now rewrite <- (live_inj _ _ _ _ _ _ L L').
Qed.
Definition nobody_uses (tp : list pst) (x : call) : bool :=
  match handle_of x with
  | None => true
  | Some h => forallb (fun p => match p with
      | Constr _ h' _ => negb (h' =? h)
      | _ => match call_of p with
             | Some y => match handle_of y with Some h' => negb (h' =? h) || (negb (excl x) && negb (excl y)) | None => true end
             | None => true
             end
      end) tp
  end.
Lemma nobody_uses_ok H tp x : legal H x -> nobody_uses tp x = true -> may_call H tp x.
Proof.
  intros L B. split; [now apply legal_use|]. intros h Hh. unfold nobody_uses in B. rewrite Hh in B. rewrite forallb_forall in B. split.
  - intros t f a E. apply nth_error_In in E. apply B in E. cbn in E. now rewrite Nat.eqb_refl in E.
  - intros t p y E Cp Hy. apply nth_error_In in E. apply B in E.
    destruct p; try discriminate; rewrite Cp, Hy, Nat.eqb_refl in E; destruct (excl x), (excl y); auto; discriminate.
Qed.

Section Do.
  Variables (alc alb : allocator) (dbg : bool).
  Definition upd (cf : cconf) (t : nat) (e : env) (mu : option nat) (p : pst) := mk_cconf e mu (set_thr t p (ct cf)).
  Definition cdo (H : history) (t : nat) (a : option call) (cf : cconf) : option (option lab * cconf) :=
    match nth_error (ct cf) t with
    | Some Idle => match a with
                   | Some x => if legal_b H x && nobody_uses (ct cf) x then Some (Some (Beg x), upd cf t (ce cf) (cmu cf) (Called x)) else None
                   | None => None end
    | Some (Called x) =>
        if locked x then match cmu cf with None => Some (None, upd cf t (ce cf) (Some t) (Inside x)) | Some _ => None end
        else match x with
             | SSkip h n => match skip_first (ce cf) h with
                            | Ret true => Some (Some (Sec (mk_event x (RStat (SErr IOError msg_pos [])))),
                                                upd cf t (ce cf) (cmu cf) (Done x (RStat (SErr IOError msg_pos []))))
                            | Ret false => Some (None, upd cf t (ce cf) (cmu cf) (Skip2 h n))
                            | _ => None end
             | Delete h => match delete_dec dbg (ce cf) h with
                           | Ret (e', d) => Some (Some (Sec (mk_event x (RStat SOk))), upd cf t e' (cmu cf) (after x (RStat SOk) d))
                           | _ => None end
             | _ => if legal_b H x then
                      match exec alc alb dbg H (ce cf) x with
                      | Ret (e', ev) => Some (Some (Sec ev), upd cf t e' (cmu cf) (Done x (ev_res ev)))
                      | _ => None end else None
             end
    | Some (Inside x) =>
        if plain (ce cf) x then
          if legal_b H x then match exec alc alb dbg H (ce cf) x with
            | Ret (e', ev) => Some (Some (Sec ev), upd cf t e' (cmu cf) (Leaving x (ev_res ev)))
            | _ => None end else None
        else match x with
             | NewWrite f => match map_find f (e_map (ce cf)) with
                 | Some a => if legal_b H x then match truncate (e_mem (ce cf)) a with
                     | Ret m => Some (Some (Sec (mk_event x (RStat SOk))),
                                      upd cf t (mk_env m (e_map (ce cf)) (e_open (ce cf))) (cmu cf) (Constr f (length H) a))
                     | _ => None end else None
                 | None => None end
             | _ => match remove_sect dbg (ce cf) x with
                    | Ret (e', r, d) => Some (Some (Sec (mk_event x r)), upd cf t e' (cmu cf) (after x r d))
                    | _ => None end
             end
    | Some (Constr f h a) => match open_obj (ce cf) (e_mem (ce cf)) (e_map (ce cf)) h (OWrite a) with
                             | Ret e' => Some (None, upd cf t e' (cmu cf) (Leaving (NewWrite f) (RStat SOk)))
                             | _ => None end
    | Some (Dying x a r) => match destroy (e_mem (ce cf)) a with
                            | Ret m => Some (None, upd cf t (mk_env m (e_map (ce cf)) (e_open (ce cf))) (cmu cf) (after x r None))
                            | _ => None end
    | Some (Leaving x r) => match cmu cf with
                            | Some u => if u =? t then Some (None, upd cf t (ce cf) None (Done x r)) else None
                            | None => None end
    | Some (Skip2 h n) => match skip_second (ce cf) h n with
                          | Ret e' => Some (Some (Sec (mk_event (SSkip h n) (RStat SOk))), upd cf t e' (cmu cf) (Done (SSkip h n) (RStat SOk)))
                          | _ => None end
    | Some (Done x r) => Some (Some (Rtn r), upd cf t (ce cf) (cmu cf) Idle)
    | None => None
    end.
  Lemma legal_b_range H x : legal_b H x = true -> in_range H x.
  Proof. intros L. now apply legal_b_ok, legal_use in L. Qed.
  Lemma cdo_ok H t a cf o cf' : cdo H t a cf = Some (o, cf') -> cstep alc alb dbg H t cf o cf'.
  Proof.
    unfold cdo, upd. destruct (nth_error (ct cf) t) as [p|] eqn:Et; [|discriminate].
    destruct p as [|x|x|f h b|x b r|x r|h n|x r].
    - destruct a as [x|]; [|discriminate]. destruct (legal_b H x && nobody_uses (ct cf) x) eqn:L; [|discriminate].
      intros E. inversion E; subst. apply andb_prop in L as [L1 L2]. apply c_call; [exact Et|]. apply nobody_uses_ok; auto. now apply legal_b_ok.
    - destruct (locked x) eqn:Lx.
      + destruct (cmu cf) eqn:Mu; [discriminate|]. intros E. inversion E; subst. now apply c_lock.
      + assert (D : (exists h n, x = SSkip h n) \/ (exists h, x = Delete h) \/ ((forall h n, x <> SSkip h n) /\ (forall h, x <> Delete h))).
        { destruct x; eauto; right; right; split; discriminate. }
        destruct D as [(h & n & ->)|[(h & ->)|(N1 & N2)]].
        * destruct (skip_first (ce cf) h) as [[|]| | |] eqn:Es; try discriminate; intros E; inversion E; subst; [now apply c_skip_err|now apply c_skip1].
        * destruct (delete_dec dbg (ce cf) h) as [[e' d]| | |] eqn:Ed; try discriminate. intros E. inversion E; subst. now apply c_delete.
        * intros E. assert (K : (if legal_b H x then match exec alc alb dbg H (ce cf) x with
                      | Ret (e', ev) => Some (Some (Sec ev), mk_cconf e' (cmu cf) (set_thr t (Done x (ev_res ev)) (ct cf)))
                      | _ => None end else None) = Some (o, cf')).
          { destruct x; try exact E; [exfalso; eapply N1; reflexivity|exfalso; eapply N2; reflexivity]. }
          clear E. destruct (legal_b H x) eqn:L; [|discriminate]. destruct (exec alc alb dbg H (ce cf) x) as [[e' ev]| | |] eqn:Ex; try discriminate.
          inversion K; subst. apply c_free; auto. now apply legal_b_range.
    - destruct (plain (ce cf) x) eqn:Px.
      + destruct (legal_b H x) eqn:L; [|discriminate]. destruct (exec alc alb dbg H (ce cf) x) as [[e' ev]| | |] eqn:Ex; try discriminate.
        intros E. inversion E; subst. apply c_plain; auto. now apply legal_b_range.
      + assert (D : (exists f, x = NewWrite f) \/ (forall f, x <> NewWrite f)) by (destruct x; eauto; right; discriminate).
        destruct D as [(f & ->)|N].
        * destruct (map_find f (e_map (ce cf))) as [b|] eqn:Ef; [|discriminate]. destruct (legal_b H (NewWrite f)) eqn:L; [|discriminate].
          destruct (truncate (e_mem (ce cf)) b) as [m| | |] eqn:Etr; try discriminate. intros E. inversion E; subst.
          apply c_trunc; auto. now apply legal_b_range.
        * intros E. assert (K : (match remove_sect dbg (ce cf) x with
                    | Ret (e', r, d) => Some (Some (Sec (mk_event x r)), mk_cconf e' (cmu cf) (set_thr t (after x r d) (ct cf)))
                    | _ => None end) = Some (o, cf')) by (destruct x; try exact E; exfalso; eapply N; reflexivity).
          clear E. destruct (remove_sect dbg (ce cf) x) as [[[e' r] d]| | |] eqn:Er; try discriminate. inversion K; subst. now apply c_remove.
    - destruct (open_obj _ _ _ h (OWrite b)) as [e'| | |] eqn:Eo; try discriminate. intros E. inversion E; subst. now apply c_constr with (a := b) (h := h).
    - destruct (destroy (e_mem (ce cf)) b) as [m| | |] eqn:Ed; try discriminate. intros E. inversion E; subst. now apply c_destroy with (a := b).
    - destruct (cmu cf) as [u|] eqn:Mu; [|discriminate]. destruct (u =? t) eqn:Q; [|discriminate]. apply Nat.eqb_eq in Q. subst u.
      intros E. inversion E; subst. now apply c_unlock.
    - destruct (skip_second (ce cf) h n) as [e'| | |] eqn:Es; try discriminate. intros E. inversion E; subst. now apply c_skip2.
    - intros E. inversion E; subst. now apply (c_return _ _ _ _ _ _ x).
  Qed.
  Fixpoint run_sched (s : list (nat * option call)) (tr : trace) (cf : cconf) : option (trace * cconf) :=
    match s with
    | [] => Some (tr, cf)
    | (t, a) :: s' => match cdo (sections tr) t a cf with
                      | Some (o, cf') => run_sched s' (add_lab t o tr) cf'
                      | None => None
                      end
    end.
  Lemma run_sched_ok n s : forall tr cf tr' cf', cruns alc alb dbg n tr cf ->
    run_sched s tr cf = Some (tr', cf') -> cruns alc alb dbg n tr' cf'.
  Proof.
    induction s as [|[t a] s IH]; cbn [run_sched]; intros tr cf tr' cf' R E; [inversion E; subst; auto|].
    destruct (cdo (sections tr) t a cf) as [[o cf1]|] eqn:D; [|discriminate].
    eapply IH; [|exact E]. econstructor; [exact R|]. eapply cdo_ok; eauto.
  Qed.
End Do.

(** Thread 0 writes ten bytes to /d/a and reads five of them, then begins
    Skip(8); after its first look at the size thread 1 truncates the file. *)
Definition step (t : nat) : nat * option call := (t, None).
Definition go (t : nat) (x : call) (k : nat) : list (nat * option call) := (t, Some x) :: repeat (step t) k.
Definition ten : list N := [1;2;3;4;5;6;7;8;9;10]%N.
Definition race_sched : list (nat * option call) :=
  go 0 (NewWrite fa) 4 ++ go 0 (WAppend 0 ten) 2 ++ go 0 (NewSeq fa) 4 ++ go 0 (SRead 2 5) 2 ++
  go 0 (SSkip 2 8) 1 ++ go 1 (NewWrite fa) 5 ++ [step 0; step 0].
Definition race_run := run_sched alc_reuse alc_bump true race_sched [] (mk_cconf env_new None (repeat Idle 2)).

Theorem C51_skip_race_refuted :
  exists tr cf new old, cexec alc_reuse alc_bump true 2 tr cf /\
    tr = new ++ (0, Sec (mk_event (SSkip 2 8) (RStat SOk))) :: old /\
    live (sections old) 2 KSeq 0 /\ pos (sections old) 2 = 5%N /\ fsize (sections old) 0 = 0%N /\
    pos (sections tr) 2 = 13%N /\ fsize (sections tr) 0 = 0%N.
Proof.
  destruct race_run as [[tr cf]|] eqn:E; [|vm_compute in E; discriminate].
  exists tr, cf, (firstn 1 tr), (skipn 2 tr). split.
  { split; [apply alc_reuse_ok|]. split; [apply alc_bump_ok|]. eapply run_sched_ok; [apply cr_new|exact E]. }
  vm_compute in E. inversion E; subst tr. clear E. unfold live. repeat split; vm_compute; reflexivity.
Qed.
Print Assumptions C51_skip_race_refuted.

(** ** The hypotheses are met: two threads, a file removed by one while the other
    has it open, with the last reference given up after the removal; at the end
    nobody is in a call. *)
Definition busy_sched : list (nat * option call) :=
  go 0 (NewWrite fa) 4 ++ go 1 (NewRand fa) 2 ++ [(0, Some (WAppend 0 ten)); step 0; step 1; step 0; step 1] ++
  [(0, Some (Remove fa)); (1, Some (RRead 1 2 3)); step 0; step 0; step 1; step 0; step 1; step 0] ++
  [(0, Some (Delete 0)); (1, Some (Delete 1)); step 0; step 1; step 0; step 1; step 1].
Example busy : exists tr cf, cexec alc_reuse alc_bump true 2 tr cf /\
  (forall t p, nth_error (ct cf) t = Some p -> p = Idle) /\ length (sections tr) = 7 /\ m_files (e_mem (ce cf)) = [].
Proof.
  destruct (run_sched alc_reuse alc_bump true busy_sched [] (mk_cconf env_new None (repeat Idle 2))) as [[tr cf]|] eqn:E; [|vm_compute in E; discriminate].
  exists tr, cf. split.
  { split; [apply alc_reuse_ok|]. split; [apply alc_bump_ok|]. eapply run_sched_ok; [apply cr_new|exact E]. }
  vm_compute in E. inversion E; subst tr cf. clear E. split; [|split; vm_compute; reflexivity].
  intros [|[|t]] p Q; cbn in Q; [now inversion Q|now inversion Q|]. destruct t; discriminate.
Qed.
(** Two threads read with one RandomAccessFile and two append with one WritableFile at the
    same time. *)
Definition overlap_sched : list (nat * option call) :=
  go 0 (NewWrite fa) 4 ++ go 0 (NewRand fa) 4 ++ [(0, Some (WAppend 0 ten)); (1, Some (WAppend 0 ten)); step 1; step 0; step 1; step 0] ++
  [(0, Some (RRead 1 2 3)); (1, Some (RRead 1 0 12)); step 1; step 0].
Example overlap : exists tr cf, cexec alc_reuse alc_bump true 2 tr cf /\
  nth_error (ct cf) 0 = Some (Done (RRead 1 2 3) (RData SOk [3;4;5]%N)) /\
  nth_error (ct cf) 1 = Some (Done (RRead 1 0 12) (RData SOk (ten ++ [1;2])%N)).
Proof.
  destruct (run_sched alc_reuse alc_bump true overlap_sched [] (mk_cconf env_new None (repeat Idle 2))) as [[tr cf]|] eqn:E; [|vm_compute in E; discriminate].
  exists tr, cf. split.
  { split; [apply alc_reuse_ok|]. split; [apply alc_bump_ok|]. eapply run_sched_ok; [apply cr_new|exact E]. }
  vm_compute in E. inversion E; subst tr cf. clear E. split; vm_compute; reflexivity.
Qed.
