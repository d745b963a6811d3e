(** PosixOomProps.v -- C115: opening files when memory runs out. *)
From Coq Require Import List Arith NArith ZArith Lia Bool Permutation.
From Verif Require Import Outcome Status MemEnv EnvUtil PosixOs PosixFd PosixWritable PosixRead PosixReadSpec PosixReadProofs PosixEnv PosixMisc PosixMiscProps PosixOom PosixOomProofs.
Import ListNotations.
Local Open Scope outcome_scope.

(** ** C115 *)
(** A call that does not throw does what C60 to C63 say; a call whose memory is
    there does not throw. *)
Theorem C115_without_exception_no_difference :
  forall dbg strerror S (os : S -> syscall -> S * answer) w0 lim0,
    (forall cs e, xsteps dbg strerror S os (xstart S w0 lim0) cs e -> x_throws e = 0 -> rruns dbg strerror S os w0 lim0 (x_r e)) /\
    (forall fails w lim name w' lim' f st, new_random_x strerror S os fails w lim name = (w', lim', XRet (f, st)) -> new_random strerror S os w lim name = (w', lim', f, st)) /\
    (forall w lim name, exists w' lim' f st, new_random_x strerror S os false w lim name = (w', lim', XRet (f, st))) /\
    (forall fails w f off n w' st r, ran_read_x dbg strerror S os fails w f off n = Ret (w', XRet (st, r)) -> ran_read dbg strerror S os w f off n = Ret (w', st, r)).
Proof.
  intros dbg strerror S os w0 lim0. split; [|split; [|split]].
  - assert (G : forall cs e1 e2, xsteps dbg strerror S os e1 cs e2 -> x_throws e2 = 0 -> rruns dbg strerror S os w0 lim0 (x_r e1) -> rruns dbg strerror S os w0 lim0 (x_r e2)).
    { intros cs e1 e2 H. induction H as [e|e c e1 cs e2 E H IH]; intros T R; [exact R|]. apply IH; [exact T|].
      destruct (leak_grows _ _ _ _ _ _ _ H) as (_ & _ & Ht). assert (T1 : x_throws e1 = 0) by lia.
      destruct c as [name fails|o off n fails|o]; cbn [xstep] in E.
      - destruct (new_random_x strerror S os fails _ _ _) as [[w' lim'] [[f st]|k1]] eqn:En; injection E as <-; [|discriminate T1]. cbn [x_r]. apply new_random_x_ret in En.
        eapply (rr_more _ _ _ _ _ _ _ (RNew name)); [exact R|]. cbn [rstep]. rewrite En. reflexivity.
      - destruct (rlookup (r_live (x_r e)) o) as [f|] eqn:El; [|discriminate]. injection E as E. destruct (ran_read_x dbg strerror S os fails _ _ _ _) as [[w' [q|k1]]| | |] eqn:Er; cbn [bind] in E; try discriminate; injection E as <-; [|discriminate T1].
        apply ran_read_x_ret in Er. eapply (rr_more _ _ _ _ _ _ _ (RRead o off n)); [exact R|]. cbn [rstep]. rewrite El, Er. reflexivity.
      - destruct (rlookup (r_live (x_r e)) o) as [f|] eqn:El; [|discriminate]. injection E as E. destruct (ran_delete dbg S os _ _ _) as [[w' lim']| | |] eqn:Er; cbn [bind] in E; try discriminate. injection E as <-.
        eapply (rr_more _ _ _ _ _ _ _ (RDelete o)); [exact R|]. cbn [rstep]. rewrite El, Er. reflexivity. }
    intros cs e H T. apply (G _ _ _ H T). constructor.
  - intros. now apply (new_random_x_ret strerror S os fails).
  - apply new_random_x_false.
  - intros fails w f off n w' st r E. now apply (ran_read_x_ret dbg strerror S os fails) in E.
Qed.
Print Assumptions C115_without_exception_no_difference.

(** Every history of opening, reading and deleting random-access files, with
    exceptions anywhere: what is open and mapped is exactly what the live files
    have, each their own, and what throwing calls have left behind; so are the
    slots of the two limiters.  A throwing call leaves at most one descriptor, one
    region and one slot. *)
Theorem C115_everything_accounted_for :
  forall dbg strerror S (os : S -> syscall -> S * answer) w0 lim0 cs e, xsteps dbg strerror S os (xstart S w0 lim0) cs e ->
    (exists l fds ms, w_log (r_world (x_r e)) = w_log w0 ++ l /\
       fds_after [] l = Some fds /\ Permutation fds (owned_fds (r_live (x_r e)) ++ k_fds (x_leak e)) /\
       maps_after [] l = Some ms /\ Permutation ms (owned_maps (r_live (x_r e)) ++ k_maps (x_leak e))) /\
    (l_mmap lim0 - l_mmap (r_lim (x_r e)) = Z.of_nat (count is_mmap (r_live (x_r e)) + k_slots (x_leak e)))%Z /\
    (l_fd lim0 - l_fd (r_lim (x_r e)) = Z.of_nat (count is_perm (r_live (x_r e))))%Z /\
    length (k_fds (x_leak e)) <= x_throws e /\ length (k_maps (x_leak e)) <= k_slots (x_leak e) <= x_throws e.
Proof.
  intros dbg strerror S os w0 lim0 cs e H. apply xacct in H as [_ _ _ Mm Pm _ _ _ _ (K1 & K2 & K3) Lg]. split; [exact Lg|]. split; [lia|]. split; [lia|]. auto.
Qed.
Print Assumptions C115_everything_accounted_for.

(** What is left behind is left behind for ever, and the limits hold all the same:
    live mapped files and lost slots together never exceed the limit. *)
Theorem C115_lost_for_ever :
  forall dbg strerror S (os : S -> syscall -> S * answer) w0 lim0 cs e cs' e', xsteps dbg strerror S os (xstart S w0 lim0) cs e -> xsteps dbg strerror S os e cs' e' ->
    (forall fd, In fd (k_fds (x_leak e)) -> In fd (k_fds (x_leak e'))) /\ (forall m, In m (k_maps (x_leak e)) -> In m (k_maps (x_leak e'))) /\
    k_slots (x_leak e) <= k_slots (x_leak e') /\
    (Z.of_nat (count is_mmap (r_live (x_r e')) + k_slots (x_leak e)) <= Z.max 0 (l_mmap lim0))%Z /\
    (Z.of_nat (count is_perm (r_live (x_r e'))) <= Z.max 0 (l_fd lim0))%Z.
Proof.
  intros dbg strerror S os w0 lim0 cs e cs' e' H H'. destruct (leak_grows _ _ _ _ _ _ _ H') as (k & E & _). rewrite E. cbn [leak_app k_fds k_maps k_slots].
  assert (Hs : xsteps dbg strerror S os (xstart S w0 lim0) (cs ++ cs') e').
  { clear - H H'. induction H as [e|e c e1 cs e2 E H IH]; [exact H'|]. cbn [app]. econstructor; [exact E|now apply IH]. }
  apply xacct in Hs as [_ _ _ Mm Pm Mp Pp Ml Pl _ _]. rewrite E in Mm, Mp. cbn [leak_app k_slots] in Mm, Mp.
  split; [intros fd Hi; apply in_or_app; now right|]. split; [intros m Hi; apply in_or_app; now right|]. split; [lia|]. split.
  - destruct (Z.ltb_spec (l_mmap lim0) 0) as [L|L]; [destruct (Mp L) as (-> & Q); lia|specialize (Ml L); lia].
  - destruct (Z.ltb_spec (l_fd lim0) 0) as [L|L]; [rewrite (Pp L); lia|specialize (Pl L); lia].
Qed.
Print Assumptions C115_lost_for_ever.

(** So after as many exceptions as there are slots for mapped files, no file is
    ever mapped again. *)
Theorem C115_no_mapping_ever_again :
  forall dbg strerror S (os : S -> syscall -> S * answer) w0 lim0 cs e cs' e', xsteps dbg strerror S os (xstart S w0 lim0) cs e ->
    (Z.of_nat (k_slots (x_leak e)) = Z.max 0 (l_mmap lim0))%Z -> xsteps dbg strerror S os e cs' e' -> count is_mmap (r_live (x_r e')) = 0.
Proof.
  intros dbg strerror S os w0 lim0 cs e cs' e' H K H'. destruct (C115_lost_for_ever _ _ _ _ _ _ _ _ _ _ H H') as (_ & _ & _ & Q & _). lia.
Qed.
Print Assumptions C115_no_mapping_ever_again.

(** One throwing call: when it can happen, and what it leaves -- nothing, if the
    file could not be opened; else the descriptor; the slot too, if one was taken;
    the mapping too, if it was made.  No live file is touched. *)
Theorem C115_one_exception :
  forall dbg strerror S (os : S -> syscall -> S * answer) e c e', xstep dbg strerror S os e c = Some (Ret e') -> x_throws e' <> x_throws e ->
    exists k, x_leak e' = leak_app k (x_leak e) /\ x_throws e' = Datatypes.S (x_throws e) /\ r_live (x_r e') = r_live (x_r e) /\
      length (k_fds k) <= 1 /\ length (k_maps k) <= k_slots k <= 1 /\ l_fd (r_lim (x_r e')) = l_fd (r_lim (x_r e)) /\
      exists l, w_log (r_world (x_r e')) = w_log (r_world (x_r e)) ++ l /\
        (forall fds, fds_after fds l = Some (k_fds k ++ fds)) /\ (forall ms, maps_after ms l = Some (k_maps k ++ ms)).
Proof.
  intros dbg strerror S os e c e' E T. destruct c as [name fails|o off n fails|o]; cbn [xstep] in E.
  - destruct (new_random_x strerror S os fails _ _ _) as [[w' lim'] [[f st]|k]] eqn:En; injection E as <-; [now destruct T|].
    destruct (new_random_x_throw _ _ _ _ _ _ _ _ _ _ En) as (_ & _ & A2 & A3 & A4 & A5 & _ & _ & l & Ll & A8). exists k. cbn [threw x_leak x_throws x_r r_live r_lim r_world]. repeat (split; [auto|]).
    exists l. split; [exact Ll|]. split; [intros fds; apply (A8 fds [])|intros ms; apply (A8 [] ms)].
  - destruct (rlookup (r_live (x_r e)) o) as [f|]; [|discriminate]. injection E as E. destruct (ran_read_x dbg strerror S os fails _ _ _ _) as [[w' [q|k]]| | |] eqn:Er; cbn [bind] in E; try discriminate; injection E as <-; [now destruct T|].
    destruct (ran_read_x_throw _ _ _ _ _ _ _ _ _ _ _ Er) as (_ & A1 & A2 & A3 & l & Ll & A). exists k. cbn [threw x_leak x_throws x_r r_live r_lim r_world]. rewrite A1, A2. cbn [length]. repeat (split; [auto|]).
    exists l. split; [exact Ll|]. split; [intros fds; apply (A fds [])|intros ms; apply (A [] ms)].
  - destruct (rlookup (r_live (x_r e)) o) as [f|]; [|discriminate]. injection E as E. destruct (ran_delete dbg S os _ _ _) as [[w' lim']| | |]; cbn [bind] in E; try discriminate. injection E as <-. now destruct T.
Qed.
Print Assumptions C115_one_exception.

(** "A call that throws leaves nothing behind" is false, of each call. *)
(** NewRandomAccessFile: descriptor, region and slot. *)
Theorem C115_nothing_left_behind_refuted :
  exists S (os : S -> syscall -> S * answer) w0 lim0 e e', xsteps true (fun _ => []) S os (xstart S w0 lim0) [XNew [97%N] false; XNew [97%N] true; XDelete 0; XNew [97%N] false] e' /\
    xsteps true (fun _ => []) S os (xstart S w0 lim0) [XNew [97%N] false; XNew [97%N] true; XDelete 0] e /\
    r_live (x_r e) = [] /\ l_mmap lim0 = 2%Z /\ l_mmap (r_lim (x_r e)) = 1%Z /\ k_fds (x_leak e) = [3%Z] /\ k_maps (x_leak e) = [(4096%N, 3%N)] /\
    count is_mmap (r_live (x_r e')) = 1 /\ l_mmap (r_lim (x_r e')) = 0%Z.
Proof.
  exists nat, (toy_os [1; 2; 3]%N), (mk_world 0 []), (mk_limits 2 1).
  destruct (xstep true (fun _ => []) nat (toy_os [1; 2; 3]%N) (xstart nat (mk_world 0 []) (mk_limits 2 1)) (XNew [97%N] false)) as [[e1| | |]|] eqn:E1; try (vm_compute in E1; discriminate).
  destruct (xstep true (fun _ => []) nat (toy_os [1; 2; 3]%N) e1 (XNew [97%N] true)) as [[e2| | |]|] eqn:E2; try (vm_compute in E1; injection E1 as <-; vm_compute in E2; discriminate).
  destruct (xstep true (fun _ => []) nat (toy_os [1; 2; 3]%N) e2 (XDelete 0)) as [[e3| | |]|] eqn:E3; try (vm_compute in E1; injection E1 as <-; vm_compute in E2; injection E2 as <-; vm_compute in E3; discriminate).
  destruct (xstep true (fun _ => []) nat (toy_os [1; 2; 3]%N) e3 (XNew [97%N] false)) as [[e4| | |]|] eqn:E4; try (vm_compute in E1; injection E1 as <-; vm_compute in E2; injection E2 as <-; vm_compute in E3; injection E3 as <-; vm_compute in E4; discriminate).
  exists e3, e4. split; [do 4 (econstructor; [eassumption|]); constructor|]. split; [do 3 (econstructor; [eassumption|]); constructor|].
  vm_compute in E1. injection E1 as <-. vm_compute in E2. injection E2 as <-. vm_compute in E3. injection E3 as <-. vm_compute in E4. injection E4 as <-. repeat split; reflexivity.
Qed.
Print Assumptions C115_nothing_left_behind_refuted.

(** NewSequentialFile, NewWritableFile, NewAppendableFile: the descriptor, if the
    file could be opened -- for NewWritableFile already truncated. *)
Theorem C115_new_file_leaves_a_descriptor :
  forall S (os : S -> syscall -> S * answer) w name fl, exists a, w_log (new_file_throws S os w name fl) = w_log w ++ [(COpen name fl, a)] /\
    forall fds, fds_after fds [(COpen name fl, a)] = Some (if (0 <=? a_ret a)%Z then a_ret a :: fds else fds).
Proof. intros S os w name fl. exists (snd (sys os w (COpen name fl))). split; reflexivity. Qed.
Print Assumptions C115_new_file_leaves_a_descriptor.

(** NewLogger: the FILE, if there is one, else nothing. *)
Theorem C115_new_logger_leaves_a_stream :
  forall strerror S (os : S -> syscall -> S * answer) w name w' o st, new_logger strerror S os w name = (w', o, st) ->
    w_log (new_logger_throws S os w name) = w_log w' /\
    exists l, w_log w' = w_log w ++ l /\ (forall fds, fds_after fds l = Some fds) /\ (forall fps, files_after fps l = match o with Some fp => fp :: fps | None => fps end).
Proof.
  intros strerror S os w name w' o st E. split.
  - unfold new_logger in E. unfold new_logger_throws. destruct (sys os w (COpen name WrAppend)) as [w1 a]. destruct (a_ret a <? 0)%Z; [now injection E as <- _ _|].
    destruct (sys os w1 (CFdopen (a_ret a))) as [w2 p]. destruct (N.eqb (a_val p) 0); [|now injection E as <- _ _]. destruct (sys os w2 (CClose (a_ret a))) as [w3 c]. now injection E as <- _ _.
  - destruct (C79_new_logger _ _ _ _ _ _ _ _ E) as (l & L & _ & _ & F & P). eauto.
Qed.
Print Assumptions C115_new_logger_leaves_a_stream.

(** GetChildren: the directory stream, if it was opened: it is read and never
    closed.  *result has the entries before the one that had no memory. *)
Fixpoint streams_after (ds : list N) (l : log) : list N :=
  match l with
  | [] => ds
  | (COpendir _, a) :: l' => streams_after (if N.eqb (a_val a) 0 then ds else a_val a :: ds) l'
  | (CClosedir d, _) :: l' => streams_after (remove N.eq_dec d ds) l'
  | _ :: l' => streams_after ds l'
  end.
Theorem C115_get_children_leaves_a_stream :
  forall S (os : S -> syscall -> S * answer) k w dir w' names, get_children_throws S os k w dir = Some (w', names) ->
    exists a l, w_log w' = w_log w ++ (COpendir dir, a) :: l /\
      (a_val a = 0%N -> l = [] /\ names = [] /\ forall ds, streams_after ds ((COpendir dir, a) :: l) = ds) /\
      (a_val a <> 0%N -> exists ns, names = map a_data (firstn k ns) /\ length ns = Datatypes.S k /\ l = map (fun x => (CReaddir (a_val a), x)) ns /\ length names = k /\
         forall ds, streams_after ds ((COpendir dir, a) :: l) = a_val a :: ds).
Proof.
  intros S os k w dir w' names E. unfold get_children_throws in E. pose proof (sys_log os w (COpendir dir)) as L. destruct (sys os w (COpendir dir)) as [w1 a]. cbn [fst snd] in L. exists a.
  destruct (N.eqb_spec (a_val a) 0) as [Z|Z].
  - injection E as <- <-. exists []. split; [exact L|]. split; [|congruence]. intros _. repeat split. intros ds. cbn [streams_after]. rewrite Z. reflexivity.
  - assert (G : forall k w1 result w' names, read_dir_throws S os k w1 (a_val a) result = Some (w', names) ->
      exists ns, w_log w' = w_log w1 ++ map (fun x => (CReaddir (a_val a), x)) ns /\ names = result ++ map a_data (firstn k ns) /\ length ns = Datatypes.S k).
    { clear. induction k as [|k IH]; intros w1 result w' names E; cbn [read_dir_throws] in E; pose proof (sys_log os w1 (CReaddir (a_val a))) as L; destruct (sys os w1 (CReaddir (a_val a))) as [w2 b]; cbn [fst snd] in L; (destruct (a_ret b =? 0)%Z; [discriminate|]).
      - injection E as <- <-. exists [b]. cbn [firstn map length]. rewrite app_nil_r. auto.
      - destruct (IH _ _ _ _ E) as (ns & L2 & N & Ln). exists (b :: ns). cbn [firstn map length]. rewrite L2, L, <- app_assoc, N, <- app_assoc, Ln. repeat split. }
    destruct (G _ _ _ _ _ E) as (ns & L2 & N & Ln). exists (map (fun x => (CReaddir (a_val a), x)) ns). split; [rewrite L2, L, <- app_assoc; reflexivity|]. split; [congruence|]. intros _. exists ns.
    cbn [app] in N. repeat split; auto; [rewrite N, map_length, firstn_length, Ln; lia|].
    intros ds. cbn [streams_after]. destruct (N.eqb_spec (a_val a) 0); [congruence|]. clear. induction ns as [|x ns IH]; [reflexivity|exact IH].
Qed.
Print Assumptions C115_get_children_leaves_a_stream.
Example C115_get_children_example : exists S (os : S -> syscall -> S * answer) w w' , get_children_throws S os 1 w [47%N] = Some (w', [[97%N]]) /\ length (w_log w') = 3.
Proof.
  exists unit, (fun s c => match c with COpendir _ => (s, mk_answer 0 0 [] 5) | CReaddir _ => (s, mk_answer 1 0 [97%N] 0) | _ => (s, mk_answer 0 0 [] 0) end), (mk_world tt []). eexists. split; vm_compute; reflexivity.
Qed.
