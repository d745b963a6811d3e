(** StatusProps.v -- property theorems C18, C19. *)
From Coq Require Import String List Arith NArith Lia Bool.
From Verif Require Import Outcome Heap Status StatusSpec StatusProofs.
Import ListNotations.
Local Open Scope outcome_scope.

(** C18: a status made by any of the five factories answers true to its own
    predicate and to no other, is not ok(), and prints label + message; for
    every allocator, heap, kind and messages of total length < 2^32 - 7, in
    release and debug builds. *)
Theorem C18_error_status :
  forall alc dbg h k msg msg2,
    allocator_ok alc ->
    (N.of_nat (length msg + length msg2) < 2 ^ 32 - 7)%N ->
    exists h' p,
      Factory alc dbg k h msg msg2 = Ret (h', p) /\
      ok_ p = false /\
      (forall k', Is k' h' p = Ret (kind_eqb k' k)) /\
      ToString h' p = Ret (label k ++ message msg msg2) /\
      (forall a, In a (dom h) -> hget h' a = hget h a).
Proof.
  intros alc dbg h k msg msg2 Halc Hl.
  destruct (MakeStatus_fit alc dbg h k msg msg2 Hl) as [HM Hf].
  unfold Factory. rewrite HM. eexists _, _. split; [reflexivity|].
  assert (Hr : rep (hput (hput h (alc (dom h)) (repeat None (5 + length (message msg msg2))))
                  (alc (dom h)) (blk k (message msg msg2)))
                   (Some (alc (dom h))) (Some (k, message msg msg2))).
  { cbn [rep]. rewrite hget_hput_eq. auto. }
  split; [reflexivity|]. split; [|split].
  - intros k'. exact (rep_Is _ _ _ k' Hr).
  - exact (rep_ToString _ _ _ Hr).
  - intros a Ha. destruct (Halc (dom h)) as [Hn _].
    rewrite !hget_hput_ne by congruence. reflexivity.
Qed.
Print Assumptions C18_error_status.

(** C18, the success status. *)
Theorem C18_ok_status :
  forall h, ok_ None = true /\ (forall k, Is k h None = Ret false) /\
            ToString h None = Ret (bytes_of "OK"%string).
Proof. intros h. split; [reflexivity|]. split; [intros []; reflexivity|reflexivity]. Qed.
Print Assumptions C18_ok_status.

(** C18: the length bound is needed: a message of 2^32-5 .. 2^32-1 bytes makes
    the constructor write outside the (wrapped-size) array. *)
Theorem C18_huge_message_refuted :
  forall alc dbg h k msg,
    (2 ^ 32 - 5 <= N.of_nat (length msg) < 2 ^ 32)%N ->
    Factory alc dbg k h msg [] = UB.
Proof. intros. now apply MakeStatus_huge. Qed.
Print Assumptions C18_huge_message_refuted.

(** C18: such messages exist, and one of exactly 2^32 bytes is silently
    replaced by the empty message. *)
Theorem C18_truncation_refuted :
  exists msg, forall alc dbg h k,
    allocator_ok alc ->
    length msg = N.to_nat (2 ^ 32) /\
    exists h' p, Factory alc dbg k h msg [] = Ret (h', p) /\ ToString h' p = Ret (label k).
Proof.
  exists (repeat 65%N (N.to_nat (2 ^ 32))). intros alc dbg h k Halc.
  rewrite repeat_length. split; [reflexivity|].
  pose proof (MakeStatus_ok alc dbg h k (repeat 65%N (N.to_nat (2 ^ 32))) []) as HM.
  cbv zeta in HM. rewrite repeat_length, N2Nat.id in HM.
  replace (u32 (2 ^ 32)) with 0%N in HM by reflexivity.
  cbn [length] in HM. change (N.to_nat 0) with 0 in HM.
  change (N.of_nat 0) with 0%N in HM. replace (u32 0) with 0%N in HM by reflexivity.
  change (N.to_nat 0) with 0 in HM. cbn [firstn] in HM.
  unfold Factory. rewrite HM by (unfold fits; cbn; lia).
  eexists _, _. split; [reflexivity|].
  rewrite (rep_ToString _ _ (Some (k, message [] []))).
  - cbn [print message]. now rewrite app_nil_r.
  - cbn [rep]. rewrite hget_hput_eq. split; [reflexivity|unfold fits; cbn; lia].
Qed.
Print Assumptions C18_truncation_refuted.

(** C18 is not vacuous. *)
Example C18_example :
  exists h p, Factory alc_reuse true IOError [] (bytes_of "dir"%string) (bytes_of "boom"%string) = Ret (h, p)
    /\ ToString h p = Ret (bytes_of "IO error: dir: boom"%string)
    /\ IsIOError h p = Ret true /\ IsNotFound h p = Ret false.
Proof. eexists _, _. split; [vm_compute; reflexivity|]. vm_compute. auto. Qed.

(** C19: every legal program over Status variables runs without undefined
    behaviour, whatever addresses operator new[] picks (including reuse of
    freed ones), and at the end every live variable prints its value under
    value semantics; no live array is shared by two variables, none is
    leaked. *)
Theorem C19_value_semantics :
  forall alc dbg ops e,
    allocator_ok alc ->
    spec_run senv0 ops = Some e ->
    exists s, srun alc dbg sinit ops = Ret s /\
      (forall v x, e v = Some x ->
         exists p, hget (s_vars s) v = Some p /\
                   ToString (s_heap s) p = Ret (print x) /\
                   ok_ p = match x with None => true | Some _ => false end /\
                   (forall k, Is k (s_heap s) p =
                      Ret (match x with None => false | Some (k', _) => kind_eqb k k' end))) /\
      (forall v, e v = None -> hget (s_vars s) v = None) /\
      (forall v w a, hget (s_vars s) v = Some (Some a) ->
                     hget (s_vars s) w = Some (Some a) -> v = w) /\
      (forall a, hget (s_heap s) a <> None ->
                 exists v, hget (s_vars s) v = Some (Some a)).
Proof.
  intros alc dbg ops e Halc Hs.
  destruct (srun_ok alc dbg ops Halc sinit senv0 e inv_init Hs) as [s [Hr Hi]].
  exists s. split; [exact Hr|]. split; [|split; [|split]].
  - intros v x Hv. destruct (inv_get _ _ _ _ Hi Hv) as [p [Hp Hrep]].
    exists p. split; [exact Hp|]. split; [now apply rep_ToString|].
    split; [eapply rep_ok; eassumption|]. intros k. now apply rep_Is.
  - intros v Hv. eapply inv_none; eauto.
  - exact (inv_own _ _ Hi).
  - exact (inv_leak _ _ Hi).
Qed.
Print Assumptions C19_value_semantics.

(** C19: when all variables have been destroyed nothing is left allocated. *)
Theorem C19_no_leak :
  forall alc dbg ops e,
    allocator_ok alc ->
    spec_run senv0 ops = Some e -> (forall v, e v = None) ->
    exists s, srun alc dbg sinit ops = Ret s /\ s_heap s = [].
Proof.
  intros alc dbg ops e Halc Hs He.
  destruct (srun_ok alc dbg ops Halc sinit senv0 e inv_init Hs) as [s [Hr Hi]].
  exists s. split; [exact Hr|]. eapply inv_all_dead; eauto.
Qed.
Print Assumptions C19_no_leak.

(** A program with aliasing, self-assignment, self-move and swap. *)
Definition C19_prog : list sop :=
  [ OpErr 1 NotFound [97%N] [98%N]; OpCopyCtor 2 1; OpErr 3 IOError [99%N] [];
    OpCopyAssign 3 3; OpCopyAssign 2 3; OpMoveAssign 1 1; OpMoveAssign 1 2; OpMoveCtor 4 2;
    OpOK 5; OpCopyAssign 5 1; OpCopyAssign 3 2 ].

Example C19_example :
  exists e s, spec_run senv0 C19_prog = Some e /\ srun alc_reuse true sinit C19_prog = Ret s /\
    map e [1;2;3;4;5] =
      [Some (Some (IOError, [99%N])); Some None; Some None;
       Some (Some (NotFound, [97;58;32;98]%N)); Some (Some (IOError, [99%N]))] /\
    length (s_heap s) = 3.
Proof. eexists _, _. split; [reflexivity|]. split; [vm_compute; reflexivity|]. vm_compute. auto. Qed.

Example C19_example_leak :
  exists e, spec_run senv0 (C19_prog ++ map OpDestroy [1;2;3;4;5]) = Some e /\ forall v, e v = None.
Proof.
  eexists. split; [reflexivity|]. intros v. cbn. unfold upd, senv0.
  do 6 (destruct v as [|v]; [reflexivity|]). reflexivity.
Qed.
