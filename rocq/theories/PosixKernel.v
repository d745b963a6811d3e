(** PosixKernel.v -- a small executable kernel that satisfies the contract of
    PosixFs.v, for examples and counterexamples (nothing here is lsmdb code).

    Reads and writes are complete.  [k_plan] says which of the coming calls fail
    and with what errno; [k_count] numbers calls, and with them new descriptors,
    mappings and directory streams; [k_names] lists all names that may be bound. *)
From Coq Require Import List Arith NArith ZArith Lia Bool.
From Verif Require Import Outcome Status MemEnv PosixOs PosixWritable PosixWritableSpec PosixRead PosixEnv PosixFs PosixEnvSpec PosixFsProofs.
Import ListNotations.

Record kst := mk_kst { k_view : view; k_count : nat; k_names : list str; k_plan : list (option Z) }.
Definition EIO : Z := 5.
Definition EBADF : Z := 9.
Definition EEXIST : Z := 17.
Definition fault (e : Z) : Z := if (e =? ENOENT)%Z || (e =? 0)%Z || (e =? EINTR)%Z then EIO else e.
Definition err (e : Z) : answer := mk_answer (-1) e [] 0.
Definition ret (r : Z) : answer := mk_answer r 0 [] 0.

Fixpoint strip (p q : str) : option str :=
  match p, q with
  | [], _ => Some q
  | x :: p', y :: q' => if N.eqb x y then strip p' q' else None
  | _ :: _, [] => None
  end.
Definition has_slash (g : str) : bool := existsb (N.eqb slash) g.
Definition kids (v : view) (names : list str) (d : str) : list str :=
  nodup eqs (dot :: (dot ++ dot) ::
    flat_map (fun q => match strip (dir_prefix d) q with
                       | Some g => if has_slash g then [] else match v_name v q with Some _ => [g] | None => [] end
                       | None => []
                       end) names).

Definition healthy_step (v : view) (count : nat) (names : list str) (c : syscall) : view * answer :=
  match c with
  | COpen p fl =>
      let fd := Z.of_nat count in
      let app := match fl with WrAppend => true | _ => false end in
      match v_name v p with
      | Some i => (with_fd (match fl with WrTrunc => with_data v i [] [] | _ => v end) fd (Some (mk_fdesc i 0 app)), ret fd)
      | None =>
          match fl, p with
          | RdOnly, _ | _, [] => (v, err ENOENT)
          | _, _ => (with_fd (create v p) fd (Some (mk_fdesc (v_next v) 0 app)), ret fd)
          end
      end
  | CClose fd => (with_fd v fd None, match v_fd v fd with Some _ => ret 0 | None => err EBADF end)
  | CWrite fd d =>
      if (fd <? 0)%Z then (v, err EBADF) else
      match v_fd v fd with
      | None => (v, err EBADF)
      | Some x =>
          let i := d_ino x in
          let p := if d_app x then length (v_data v i) else Z.to_nat (d_off x) in
          (with_fd (with_data v i (put (v_data v i) p d) (firstn p (v_safe v i))) fd (Some (mk_fdesc i (Z.of_nat (p + length d)) (d_app x))),
           ret (Z.of_nat (length d)))
      end
  | CRead fd n =>
      match v_fd v fd with
      | None => (v, err EBADF)
      | Some x =>
          let rest := skipn (Z.to_nat (d_off x)) (v_data v (d_ino x)) in
          let d := firstn (N.to_nat (N.min n (N.of_nat (length rest)))) rest in
          (with_fd v fd (Some (mk_fdesc (d_ino x) (d_off x + Z.of_nat (length d)) (d_app x))), mk_answer (Z.of_nat (length d)) 0 d 0)
      end
  | CPread fd n off =>
      if (off <? 0)%Z then (v, err EINVAL) else
      match v_fd v fd with
      | None => (v, err EBADF)
      | Some x =>
          let rest := skipn (Z.to_nat off) (v_data v (d_ino x)) in
          let d := firstn (N.to_nat (N.min n (N.of_nat (length rest)))) rest in
          (v, mk_answer (Z.of_nat (length d)) 0 d 0)
      end
  | CLseek fd off =>
      match v_fd v fd with
      | None => (v, err EBADF)
      | Some x => if (d_off x + off <? 0)%Z then (v, err EINVAL)
                  else (with_fd v fd (Some (mk_fdesc (d_ino x) (d_off x + off) (d_app x))), ret (d_off x + off))
      end
  | CFsync fd =>
      if (fd <? 0)%Z then (v, err EBADF) else
      match v_fd v fd with None => (v, err EBADF) | Some x => (synced v (d_ino x), ret 0) end
  | CStat p => match v_name v p with
               | None => (v, err ENOENT)
               | Some i => (v, mk_answer 0 0 [] (N.of_nat (length (v_data v i))))
               end
  | CMmap fd len =>
      if N.eqb len 0 then (v, err EINVAL) else
      match v_fd v fd with
      | None => (v, err EBADF)
      | Some x => (with_map v (N.of_nat (S count)) (Some (d_ino x, len)), mk_answer 0 0 [] (N.of_nat (S count)))
      end
  | CMunmap base len =>
      match v_map v base with
      | Some (_, len') => if N.eqb len' len then (with_map v base None, ret 0) else (v, err EINVAL)
      | None => (v, err EINVAL)
      end
  | CAccess p => match v_name v p with None => (v, err ENOENT) | Some _ => (v, ret 0) end
  | CUnlink p => match v_name v p with None => (v, err ENOENT) | Some _ => (with_name v p None, ret 0) end
  | CRmdir p => match v_name v p with None => (v, err ENOENT) | Some _ => (with_name v p None, ret 0) end
  | CMkdir p =>
      match p, v_name v p with
      | [], _ => (v, err ENOENT)
      | _, Some _ => (v, err EEXIST)
      | _, None => (create v p, ret 0)
      end
  | CRename p q =>
      match v_name v p, q with
      | None, _ | _, [] => (v, err ENOENT)
      | Some i, _ =>
          if match v_name v q with Some j => j =? i | None => false end then (v, ret 0)
          else (with_name (with_name v q (Some i)) p None, ret 0)
      end
  | COpendir p =>
      match v_name v p with
      | None => (v, mk_answer 0 ENOENT [] 0)
      | Some _ => (with_dir v (N.of_nat (S count)) (Some (mk_dstream p (length (v_past v)) [])), mk_answer 0 0 [] (N.of_nat (S count)))
      end
  | CReaddir d =>
      match v_dir v d with
      | Some s =>
          match filter (fun g => if in_dec eqs g (ds_given s) then false else true) (kids v names (ds_path s)) with
          | g :: _ => (with_dir v d (Some (mk_dstream (ds_path s) (ds_since s) (ds_given s ++ [g]))), mk_answer 1 0 g 0)
          | [] => (v, ret 0)
          end
      | None => (v, mk_answer 0 EBADF [] 0)
      end
  | CClosedir d => (with_dir v d None, ret 0)
  | CSetlk _ _ => (v, ret 0)
  | _ => (v, err EIO)
  end.
Definition new_names (c : syscall) : list str :=
  match c with COpen p _ | CMkdir p => [p] | CRename _ q => [q] | _ => [] end.
Definition kernel (s : kst) (c : syscall) : kst * answer :=
  let '(v', a) :=
    match nth 0 (k_plan s) None with
    | Some e =>
        match c with
        | CReaddir _ => (k_view s, mk_answer 0 (fault e) [] 0)
        | COpendir _ => (k_view s, mk_answer 0 (fault e) [] 0)
        | _ => if fallible c then (k_view s, err (fault e)) else healthy_step (k_view s) (k_count s) (k_names s) c
        end
    | None => healthy_step (k_view s) (k_count s) (k_names s) c
    end in
  (mk_kst v' (S (k_count s)) (new_names c ++ k_names s) (tl (k_plan s)), a).

(** Everything open has a number below the count; all names are listed. *)
Record good (s : kst) : Prop := {
  g_sane : sane (k_view s);
  g_fd : forall fd, v_fd (k_view s) fd <> None -> (fd < Z.of_nat (k_count s))%Z;
  g_map : forall b, v_map (k_view s) b <> None -> (b <= N.of_nat (k_count s))%N;
  g_dir : forall d, v_dir (k_view s) d <> None -> (d <= N.of_nat (k_count s))%N;
  g_names : forall p, v_name (k_view s) p <> None -> In p (k_names s) }.

Lemma strip_some p : forall q g, strip p q = Some g <-> q = p ++ g.
Proof.
  induction p as [|x p IH]; intros q g; cbn [strip app]; [split; congruence|].
  destruct q as [|y q]; [split; discriminate|]. destruct (N.eqb_spec x y) as [->|Hn].
  - rewrite IH. split; [intros ->; reflexivity|intros E; congruence].
  - split; [discriminate|intros E; congruence].
Qed.
Lemma has_slash_spec g : has_slash g = false <-> ~ In slash g.
Proof.
  unfold has_slash. destruct (existsb (N.eqb slash) g) eqn:E.
  - split; [discriminate|]. intros N. apply existsb_exists in E as (x & Hx & Ex). apply N.eqb_eq in Ex. subst x. contradiction.
  - split; [|auto]. intros _ Hin. assert (T : existsb (N.eqb slash) g = true); [|congruence]. apply existsb_exists. exists slash. split; [exact Hin|apply N.eqb_refl].
Qed.
Lemma kids_spec v names d : (forall p, v_name v p <> None -> In p names) ->
  NoDup (kids v names d) /\ forall g, In g (kids v names d) <-> g = dot \/ g = dot ++ dot \/ child v d g.
Proof.
  intros Hn. split; [apply NoDup_nodup|]. intros g. unfold kids. rewrite nodup_In. cbn [In]. 
  assert (M : In g (flat_map (fun q => match strip (dir_prefix d) q with
                       | Some g => if has_slash g then [] else match v_name v q with Some _ => [g] | None => [] end
                       | None => []
                       end) names) <-> child v d g).
  { rewrite in_flat_map. unfold child, lists. split.
    - intros (q & Hq & Hg). destruct (strip (dir_prefix d) q) as [g'|] eqn:Es; [|contradiction]. apply strip_some in Es. subst q.
      destruct (has_slash g') eqn:Eh; [contradiction|]. apply has_slash_spec in Eh. destruct (v_name v (dir_prefix d ++ g')) eqn:Ev; [|contradiction]. destruct Hg as [<-|[]]. rewrite Ev. split; [exact Eh|discriminate].
    - intros (Hs & Hv). exists (dir_prefix d ++ g). split; [auto|]. replace (strip (dir_prefix d) (dir_prefix d ++ g)) with (Some g) by (symmetry; apply strip_some; reflexivity).
      apply has_slash_spec in Hs. rewrite Hs. destruct (v_name v (dir_prefix d ++ g)); [left; reflexivity|congruence]. }
  rewrite M. split; [intros [<-|[<-|H]]; auto|intros [->|[->|H]]; auto].
Qed.

Lemma healthy_kstep s c : good s -> served c = true ->
  kstep (k_view s) (c, snd (healthy_step (k_view s) (k_count s) (k_names s) c)) (fst (healthy_step (k_view s) (k_count s) (k_names s) c)).
Proof.
  intros G Hs. destruct G as [Sn Gf Gm Gd Gn]. set (v := k_view s) in *. set (n := k_count s) in *.
  assert (Ff : v_fd v (Z.of_nat n) = None) by (destruct (v_fd v (Z.of_nat n)) eqn:E; [|reflexivity]; assert (Z.of_nat n < Z.of_nat n)%Z by (apply Gf; congruence); lia).
  assert (Fm : v_map v (N.of_nat (S n)) = None) by (destruct (v_map v (N.of_nat (S n))) eqn:E; [|reflexivity]; assert (N.of_nat (S n) <= N.of_nat n)%N by (apply Gm; congruence); lia).
  assert (Fd : v_dir v (N.of_nat (S n)) = None) by (destruct (v_dir v (N.of_nat (S n))) eqn:E; [|reflexivity]; assert (N.of_nat (S n) <= N.of_nat n)%N by (apply Gd; congruence); lia).
  assert (Rd : forall rest k, let d := firstn (N.to_nat (N.min k (N.of_nat (@length N rest)))) rest in
    d = firstn (length d) rest /\ (N.of_nat (length d) <= k)%N /\ (d = [] -> k = 0%N \/ rest = [])).
  { intros rest k d. assert (Hl : length d = N.to_nat (N.min k (N.of_nat (length rest)))) by (unfold d; apply firstn_length_le; lia).
    split; [rewrite Hl; reflexivity|]. split; [rewrite Hl; lia|]. intros E. rewrite E in Hl. cbn [length] in Hl. destruct rest; [auto|]. left. cbn [length] in Hl. lia. }
  destruct c; cbn [healthy_step served] in *; try discriminate.
  - (* open *)
    destruct (v_name v path) as [i|] eqn:En; cbn [fst snd].
    + destruct fl; constructor; cbn [ret a_ret]; auto; lia.
    + destruct fl, path; cbn [fst snd]; try (apply k_fail; [reflexivity|reflexivity|cbn; auto]);
        match goal with |- kstep _ (COpen ?p ?f, _) _ => refine (k_open_new v p f (ret (Z.of_nat n)) _ Ff En _ _); [cbn; lia|discriminate|discriminate] end.
  - apply k_close.
  - (* write *)
    destruct (Z.ltb_spec fd 0); [apply k_fail; [reflexivity|reflexivity|discriminate]|].
    destruct (v_fd v fd) as [x|] eqn:Ef; cbn [fst snd]; [|apply k_fail; [reflexivity|reflexivity|discriminate]].
    pose proof (k_write v fd data (ret (Z.of_nat (length data))) x) as K. cbn [ret a_ret] in K. rewrite Nat2Z.id, firstn_all in K. apply K; [lia|exact Ef].
  - (* read *)
    destruct (v_fd v fd) as [x|] eqn:Ef; cbn [fst snd]; [|apply k_fail; [reflexivity|reflexivity|discriminate]].
    destruct (Rd (skipn (Z.to_nat (d_off x)) (v_data v (d_ino x))) n0) as (R1 & R2 & R3).
    match goal with |- kstep _ (_, ?an) _ => pose proof (k_read v fd n0 an x) as K end. cbn [a_ret a_data] in K. apply K; auto.
    intros E. destruct (R3 E) as [Hz|Hz]; [auto|right]. apply (f_equal (@length N)) in Hz. rewrite skipn_length in Hz. cbn in Hz. lia.
  - (* pread *)
    destruct (Z.ltb_spec off 0); [apply k_fail; [reflexivity|reflexivity|discriminate]|].
    destruct (v_fd v fd) as [x|] eqn:Ef; cbn [fst snd]; [|apply k_fail; [reflexivity|reflexivity|discriminate]].
    destruct (Rd (skipn (Z.to_nat off) (v_data v (d_ino x))) n0) as (R1 & R2 & R3).
    apply (k_pread v fd n0 off _ x); cbn [a_ret a_data]; auto.
    intros E. destruct (R3 E) as [Hz|Hz]; [auto|right]. apply (f_equal (@length N)) in Hz. rewrite skipn_length in Hz. cbn in Hz. lia.
  - (* lseek *)
    destruct (v_fd v fd) as [x|] eqn:Ef; cbn [fst snd]; [|apply k_fail; [reflexivity|reflexivity|discriminate]].
    destruct (Z.ltb_spec (d_off x + off) 0); cbn [fst snd]; [apply k_fail; [reflexivity|reflexivity|discriminate]|].
    apply (k_lseek v fd off (ret (d_off x + off)) x); cbn [ret a_ret]; auto.
  - (* fsync *)
    destruct (Z.ltb_spec fd 0); [apply k_fail; [reflexivity|reflexivity|discriminate]|].
    destruct (v_fd v fd) as [x|] eqn:Ef; cbn [fst snd]; [|apply k_fail; [reflexivity|reflexivity|discriminate]]. apply k_fsync; auto.
  - apply k_neutral. reflexivity.
  - (* stat *)
    destruct (v_name v path) as [i|] eqn:En; cbn [fst snd]; [|apply k_fail; [reflexivity|reflexivity|cbn; auto]]. eapply k_stat; eauto; reflexivity.
  - (* mmap *)
    destruct (N.eqb_spec len 0); [apply k_fail; [reflexivity|reflexivity|discriminate]|].
    destruct (v_fd v fd) as [x|] eqn:Ef; cbn [fst snd]; [|apply k_fail; [reflexivity|reflexivity|discriminate]].
    match goal with |- kstep _ (_, ?an) _ => pose proof (k_mmap v fd len an x) as K end. cbn [a_ret a_val] in K. apply K; auto; lia.
  - (* munmap *)
    destruct (v_map v base) as [[i len']|] eqn:Em; [destruct (N.eqb_spec len' len) as [->|Hl]|]; cbn [fst snd].
    + eapply k_munmap; eauto.
    + apply k_munmap_bad; [intros j; congruence|cbn; lia].
    + apply k_munmap_bad; [intros j; congruence|cbn; lia].
  - destruct (v_name v path) as [i|] eqn:En; cbn [fst snd]; [apply k_access; [reflexivity|congruence]|apply k_fail; [reflexivity|reflexivity|cbn; auto]].
  - destruct (v_name v path) as [i|] eqn:En; cbn [fst snd]; [apply k_unlink; [reflexivity|congruence]|apply k_fail; [reflexivity|reflexivity|cbn; auto]].
  - destruct path as [|c0 path]; cbn [fst snd]; [apply k_fail; [reflexivity|reflexivity|cbn; auto]|].
    destruct (v_name v (c0 :: path)) as [i|] eqn:En; cbn [fst snd]; [apply k_fail; [reflexivity|reflexivity|discriminate]|apply k_mkdir; [reflexivity|exact En|discriminate]].
  - destruct (v_name v path) as [i|] eqn:En; cbn [fst snd]; [apply k_rmdir; [reflexivity|congruence]|apply k_fail; [reflexivity|reflexivity|cbn; auto]].
  - (* rename *)
    destruct (v_name v from) as [i|] eqn:En; [|cbn [fst snd]; apply k_fail; [reflexivity|reflexivity|cbn; auto]].
    destruct to as [|c0 to]; [cbn [fst snd]; apply k_fail; [reflexivity|reflexivity|cbn; auto]|].
    destruct (v_name v (c0 :: to)) as [j|] eqn:Et; [destruct (Nat.eqb_spec j i) as [->|Hj]|]; cbn [fst snd].
    + eapply k_rename_same; eauto; reflexivity.
    + apply (k_rename v from (c0 :: to) (ret 0) i); auto; congruence.
    + apply (k_rename v from (c0 :: to) (ret 0) i); auto; congruence.
  - (* opendir *)
    destruct (v_name v path) as [i|] eqn:En; cbn [fst snd]; [|apply k_opendir_fail; [reflexivity|auto]].
    destruct (kids_spec v (k_names s) path Gn) as (K1 & K2).
    match goal with |- kstep _ (_, ?an) _ => pose proof (k_opendir v path an (kids v (k_names s) path)) as K end. cbn [a_val] in K. apply K; auto; [lia|congruence|].
    intros g Hg. apply K2. auto.
  - destruct (v_dir v d) as [st|] eqn:Ed.
    + destruct (kids_spec v (k_names s) (ds_path st) Gn) as (K1 & K2).
      destruct (filter _ (kids v (k_names s) (ds_path st))) as [|g l] eqn:Ef; cbn [fst snd].
      * apply (k_readdir_end v d (ret 0) st); auto. intros g Hg.
        assert (Hk : In g (kids v (k_names s) (ds_path st))).
        { apply K2. destruct Hg as [[->| ->]|Hg]; auto. right. right. apply Hg. left. reflexivity. }
        destruct (in_dec eqs g (ds_given st)) as [|Hn]; [assumption|]. exfalso. assert (Hf : In g []); [|destruct Hf]. rewrite <- Ef. apply filter_In. split; [exact Hk|].
        destruct (in_dec eqs g (ds_given st)); [contradiction|reflexivity].
      * assert (Hf : In g (g :: l)) by (left; reflexivity). rewrite <- Ef in Hf. apply filter_In in Hf as (Hk & Hg). destruct (in_dec eqs g (ds_given st)) as [|Hn]; [discriminate|].
        match goal with |- kstep _ (_, ?an) _ => pose proof (k_readdir v d an st) as K end. cbn [a_ret a_data] in K. apply K; [discriminate|exact Ed| |intros Hx; contradiction].
        apply K2 in Hk as [->|[->|Hk]]; [left; left; reflexivity|left; right; reflexivity|right; exists (v_name v); split; [left; reflexivity|exact Hk]].
    + apply k_readdir_fail; [reflexivity|discriminate].
  - apply k_closedir.
Qed.

Lemma kernel_good s c : good s -> served c = true -> kstep (k_view s) (c, snd (kernel s c)) (k_view (fst (kernel s c))) /\ good (fst (kernel s c)).
Proof.
  intros G Hs.
  assert (K : kstep (k_view s) (c, snd (kernel s c)) (k_view (fst (kernel s c)))).
  { unfold kernel. pose proof (healthy_kstep s c G Hs) as Hk.
    assert (Fe : forall e, fault e <> ENOENT /\ fault e <> 0%Z).
    { intros e. unfold fault. destruct (Z.eqb_spec e ENOENT); [split; discriminate|]. destruct (Z.eqb_spec e 0); [split; discriminate|]. destruct (Z.eqb_spec e EINTR); [split; discriminate|]. auto. }
    destruct (nth 0 (k_plan s) None) as [e|].
    - destruct (Fe e) as (F1 & F2). destruct c; cbn [fallible]; try (destruct (healthy_step _ _ _ _); exact Hk); cbn [fst snd k_view];
        try (apply k_fail; [reflexivity|reflexivity|cbn; congruence]); [apply k_opendir_fail; [reflexivity|cbn; congruence]|apply k_readdir_fail; [reflexivity|exact F2]].
    - destruct (healthy_step (k_view s) (k_count s) (k_names s) c) as [v' a]. exact Hk. }
  split; [exact K|]. destruct G as [Sn Gf Gm Gd Gn].
  assert (Ec : k_count (fst (kernel s c)) = S (k_count s) /\ k_names (fst (kernel s c)) = new_names c ++ k_names s).
  { unfold kernel. destruct (match nth 0 (k_plan s) None with Some e => _ | None => _ end). auto. }
  destruct Ec as (Ec & En).
  assert (Nw : match c with
               | COpen _ _ => a_ret (snd (kernel s c)) = Z.of_nat (k_count s) \/ (a_ret (snd (kernel s c)) < 0)%Z
               | CMmap _ _ => a_val (snd (kernel s c)) = N.of_nat (S (k_count s)) \/ (a_ret (snd (kernel s c)) < 0)%Z
               | COpendir _ => a_val (snd (kernel s c)) = N.of_nat (S (k_count s)) \/ a_val (snd (kernel s c)) = 0%N
               | _ => True end).
  { unfold kernel. destruct c; auto.
    - destruct (nth 0 (k_plan s) None) as [e|]; cbn [fallible fst snd]; [right; cbn; lia|]. cbn [healthy_step].
      destruct (v_name (k_view s) path); cbn [fst snd]; [left; reflexivity|]. destruct fl, path; cbn; auto; right; lia.
    - destruct (nth 0 (k_plan s) None) as [e|]; cbn [fallible fst snd]; [right; cbn; lia|]. cbn [healthy_step].
      destruct (N.eqb len 0); cbn [fst snd]; [right; cbn; lia|]. destruct (v_fd (k_view s) fd); cbn [fst snd]; [left; reflexivity|right; cbn; lia].
    - destruct (nth 0 (k_plan s) None) as [e|]; cbn [fallible fst snd]; [right; reflexivity|]. cbn [healthy_step].
      destruct (v_name (k_view s) path); cbn [fst snd]; [left; reflexivity|right; reflexivity]. }
  set (s' := fst (kernel s c)) in *. set (a := snd (kernel s c)) in *.
  constructor; rewrite ?Ec, ?En; [eapply kstep_sane; eauto| | | |].
  - intros fd Hfd. assert (D : v_fd (k_view s) fd <> None \/ (exists p fl, c = COpen p fl /\ fd = a_ret a /\ (0 <= a_ret a)%Z)).
    { remember (c, a) as ev eqn:Eev. remember (k_view s') as v' eqn:Ev'.
      destruct K; injection Eev as <- <-; subst; try (left; exact Hfd);
        cbn [with_fd with_data with_map with_dir with_name create synced v_fd] in Hfd; try (left; exact Hfd);
        unfold upd in Hfd; match type of Hfd with context [Z.eq_dec ?x ?y] => destruct (Z.eq_dec x y) as [Heq|]; [|left; exact Hfd] end; subst;
        try (right; eauto; fail); try (left; congruence). }
    destruct D as [D|(p & fl & -> & -> & D)]; [apply Gf in D; lia|]. destruct Nw as [Nw|Nw]; lia.
  - intros b Hb. assert (D : v_map (k_view s) b <> None \/ (exists fd n, c = CMmap fd n /\ b = a_val a /\ (0 <= a_ret a)%Z)).
    { remember (c, a) as ev eqn:Eev. remember (k_view s') as v' eqn:Ev'.
      destruct K; injection Eev as <- <-; subst; try (left; exact Hb);
        cbn [with_fd with_data with_map with_dir with_name create synced v_map] in Hb; try (left; exact Hb);
        unfold upd in Hb; match type of Hb with context [N.eq_dec ?x ?y] => destruct (N.eq_dec x y) as [Heq|]; [|left; exact Hb] end; subst;
        try (right; eauto; fail); try (left; congruence). }
    destruct D as [D|(p & fl & -> & -> & D)]; [apply Gm in D; lia|]. destruct Nw as [Nw|Nw]; lia.
  - intros d Hd. assert (D : v_dir (k_view s) d <> None \/ (exists p, c = COpendir p /\ d = a_val a /\ a_val a <> 0%N)).
    { remember (c, a) as ev eqn:Eev. remember (k_view s') as v' eqn:Ev'.
      destruct K; injection Eev as <- <-; subst; try (left; exact Hd);
        cbn [with_fd with_data with_map with_dir with_name create synced v_dir] in Hd; try (left; exact Hd);
        unfold upd in Hd; match type of Hd with context [N.eq_dec ?x ?y] => destruct (N.eq_dec x y) as [Heq|]; [|left; exact Hd] end; subst;
        try (right; eauto; fail); try (left; congruence). }
    destruct D as [D|(p & -> & -> & D)]; [apply Gd in D; lia|]. destruct Nw as [Nw|Nw]; [lia|congruence].
  - intros p Hp. apply in_or_app. assert (D : v_name (k_view s) p <> None \/ In p (new_names c)).
    { remember (c, a) as ev eqn:Eev. remember (k_view s') as v' eqn:Ev'.
      destruct K; injection Eev as <- <-; subst; try (left; exact Hp);
        cbn [with_fd with_data with_map with_dir with_name create synced v_name] in Hp; try (left; exact Hp);
        unfold upd in Hp; cbn [new_names In]; repeat match type of Hp with context [eqs ?x ?y] => destruct (eqs x y) as [Heq|] end; subst; auto; congruence. }
    destruct D; auto.
Qed.

Definition shows (s : kst) (v : view) : Prop := v = k_view s /\ good s.
Lemma kernel_conforms : conforms kernel shows.
Proof.
  intros s v c (-> & G) Hs. destruct (kernel_good s c G Hs) as (K & G'). exists (k_view (fst (kernel s c))). split; [exact K|]. split; [reflexivity|exact G'].
Qed.
Lemma kernel_os_ok : os_ok kernel.
Proof.
  intros s c. unfold kernel. destruct c; cbn [answer_ok]; auto.
  - destruct (nth 0 (k_plan s) None) as [e|]; cbn [fallible fst snd]; [cbn; split; lia|]. cbn [healthy_step].
    destruct (Z.ltb_spec fd 0); cbn; [split; lia|]. destruct (v_fd (k_view s) fd); cbn; split; lia.
  - destruct (nth 0 (k_plan s) None) as [e|]; cbn [fallible fst snd]; [cbn; discriminate|]. cbn [healthy_step].
    destruct (Z.ltb_spec fd 0); cbn; [discriminate|]. intros; lia.
Qed.

(** Files to start with: names and contents, on disk. *)
Fixpoint index (fs : list (str * list N)) (p : str) : option nat :=
  match fs with [] => None | (q, _) :: fs' => if eqs q p then Some 0 else option_map S (index fs' p) end.
Definition start_view (fs : list (str * list N)) : view :=
  let data i := snd (nth i fs ([], [])) in
  mk_view (index fs) data (fun _ => None) (fun _ => None) (fun _ => None) (length fs) data (fun _ => true) [].
Definition start (fs : list (str * list N)) (plan : list (option Z)) : kst := mk_kst (start_view fs) 3 (map fst fs) plan.
Lemma index_lt fs p i : index fs p = Some i -> i < length fs /\ In p (map fst fs).
Proof.
  revert i. induction fs as [|[q d] fs IH]; intros i; cbn [index]; [discriminate|]. destruct (eqs q p) as [->|].
  - intros E. injection E as <-. cbn. split; [lia|auto].
  - destruct (index fs p) as [j|]; cbn [option_map]; [|discriminate]. intros E. injection E as <-. destruct (IH j eq_refl). cbn. split; [lia|auto].
Qed.
Lemma start_good fs plan : ~ In [] (map fst fs) -> good (start fs plan).
Proof.
  intros Hn. assert (Sn : sane (start_view fs)).
  { unfold sane. cbn. repeat split; try discriminate.
    - intros p i E. apply index_lt in E. apply E.
    - destruct (index fs []) eqn:E; [|reflexivity]. apply index_lt in E. destruct E; contradiction.
    - intros i. exists []. now rewrite app_nil_r. }
  constructor; cbn; try congruence; try exact Sn. intros p Hp. destruct (index fs p) eqn:E; [|congruence]. apply index_lt in E. apply E.
Qed.
