(** MemEnvConc.v -- the in-memory environment called by several threads:
    helpers/memenv/memenv.cc with its three kinds of mutex.

    mutex_ (the map) is modelled as a mutex: taken, held over several steps,
    given back.  A section under refs_mutex_ or blocks_mutex_ of a FileState is
    one step (Mutex.v shows why), and between any two steps any other thread may
    run.  So, for instance, NewWritableFile of an existing file empties the file
    in one step and takes its reference in another, Unref gives up the reference
    in one step and deletes the FileState in another, and Skip reads the size
    twice.  What a thread does to the map while it holds mutex_ is put into the
    same step as the FileState section next to it: no other thread looks at the
    map meanwhile. *)
From Coq Require Import List Arith NArith ZArith Bool.
From Verif Require Import Outcome Heap Status MemEnv MemEnvSpec.
Import ListNotations.
Local Open Scope outcome_scope.

(** What a thread is doing. *)
Inductive pst :=
| Idle
| Called (x : call)                          (* has called x, nothing done yet *)
| Inside (x : call)                          (* has taken mutex_ *)
| Constr (f : str) (h a : nat)               (* NewWritableFile(f) after Truncate: before new WritableFileImpl *)
| Dying (x : call) (a : nat) (r : result)    (* the count of a was brought to zero: before delete this *)
| Leaving (x : call) (r : result)            (* before giving mutex_ back *)
| Skip2 (h : nat) (n : N)                    (* Skip after its first Size() *)
| Done (x : call) (r : result).              (* about to return *)

(** Calls that take mutex_, memenv.cc:235-351. *)
Definition locked (x : call) : bool :=
  match x with
  | NewSeq _ | NewRand _ | NewWrite _ | NewAppend _ | Exists _ | Children _ | Remove _ | FileSize _ | Rename _ _ => true
  | _ => false
  end.

Inductive lab := Beg (x : call) | Sec (ev : event) | Rtn (r : result).
Definition trace := list (nat * lab).
(** The order in which the calls took effect. *)
Definition sections (tr : trace) : history :=
  flat_map (fun p => match snd p with Sec ev => [ev] | _ => [] end) tr.

Record cconf := mk_cconf { ce : env; cmu : option nat; ct : list pst }.

(** ** What the callers must respect *)

(** The call a thread is in the middle of, as far as file objects matter. *)
Definition call_of (p : pst) : option call :=
  match p with Called x => Some x | Skip2 h n => Some (SSkip h n) | _ => None end.
(** Calls that need the file object for themselves: env.h asks for that for a
    SequentialFile (external synchronization), and deleting needs it always. *)
Definition excl (x : call) : bool :=
  match x with SRead _ _ | SSkip _ _ | Delete _ => true | _ => false end.
(** The file object is live and of the right kind; sizes are size_t. *)
Definition may_use (H : history) (x : call) : Prop :=
  match x with
  | SRead h n | SSkip h n => (n < 2 ^ 64)%N /\ exists i, live H h KSeq i
  | RRead h off n => (off < 2 ^ 64)%N /\ (n < 2 ^ 64)%N /\ exists i, live H h KRand i
  | WAppend h _ | WClose h | WFlush h | WSync h => exists i, live H h KWrite i
  | Delete h => exists k i, live H h k i
  | _ => True
  end.
Definition may_call (H : history) (tp : list pst) (x : call) : Prop :=
  may_use H x /\
  forall h, handle_of x = Some h ->
    (forall t f a, nth_error tp t <> Some (Constr f h a)) /\
    (forall t p y, nth_error tp t = Some p -> call_of p = Some y -> handle_of y = Some h -> excl x = false /\ excl y = false).
(** The ranges (see MemEnvSpec.legal) when the call takes effect. *)
Definition in_range (H : history) (x : call) : Prop :=
  match x with
  | NewSeq _ | NewRand _ | NewWrite _ => (N.of_nat (live_count H) < 2 ^ 31 - 2)%N
  | NewAppend f => bound H f <> None /\ (N.of_nat (live_count H) < 2 ^ 31 - 2)%N
  | WAppend h d => forall i, live H h KWrite i -> (fsize H i + N.of_nat (length d) < 2 ^ 64)%N
  | _ => True
  end.

Fixpoint set_thr (t : nat) (p : pst) (l : list pst) : list pst :=
  match l, t with
  | [], _ => []
  | _ :: l', O => p :: l'
  | q :: l', S t' => q :: set_thr t' p l'
  end.

Section Conc.
  Variables (alc alb : allocator) (dbg : bool).

  (** Calls whose work is one section: new names in NewWritableFile are private
      until mutex_ is given back. *)
  Definition plain (e : env) (x : call) : bool :=
    match x with
    | NewWrite f => match map_find f (e_map e) with None => true | Some _ => false end
    | Remove _ | Rename _ _ => false
    | _ => locked x
    end.
  (** RemoveFileInternal up to the decrement, with its erase, memenv.cc:311-319;
      the FileState to delete, if any *)
  Definition remove_dec (m : mem) (fm : fmap) (f : str) : outcome (mem * fmap * option nat) :=
    match map_find f fm with
    | None => Ret (m, fm, None)
    | Some _ => let '(fm1, a) := map_index f fm in
                let! r := unref_dec dbg m a in
                Ret (fst r, map_erase f fm1, if snd r then Some a else None)
    end.
  (** RemoveFile, memenv.cc:321-329, and RenameFile, memenv.cc:346-357, without
      the deletion of the FileState *)
  Definition remove_sect (e : env) (x : call) : outcome (env * result * option nat) :=
    match x with
    | Remove f =>
        match map_find f (e_map e) with
        | None => Ret (e, RStat (SErr IOError f msg_not_found), None)
        | Some _ => let! r := remove_dec (e_mem e) (e_map e) f in
                    Ret (mk_env (fst (fst r)) (snd (fst r)) (e_open e), RStat SOk, snd r)
        end
    | Rename src target =>
        match map_find src (e_map e) with
        | None => Ret (e, RStat (SErr IOError src msg_not_found), None)
        | Some _ => let! r := remove_dec (e_mem e) (e_map e) target in
                    let '(fm1, a) := map_index src (snd (fst r)) in
                    let fm2 := map_set target a fm1 in
                    Ret (mk_env (fst (fst r)) (map_erase src fm2) (e_open e), RStat SOk, snd r)
        end
    | _ => UB
    end.
  (** Destructor of a file object up to the decrement, memenv.cc:157, 188, 203 *)
  Definition delete_dec (e : env) (h : nat) : outcome (env * option nat) :=
    match hget (e_open e) h with
    | None => UB
    | Some o => let! r := unref_dec dbg (e_mem e) (ofile_state o) in
                Ret (mk_env (fst r) (e_map e) (hdel (e_open e) h), if snd r then Some (ofile_state o) else None)
    end.
  (** Skip: pos_ > file_->Size(), memenv.cc:168 *)
  Definition skip_first (e : env) (h : nat) : outcome bool :=
    match hget (e_open e) h with
    | Some (OSeq a p) => let! s := size (e_mem e) a in Ret (s <? p)%N
    | _ => UB
    end.
  (** Skip: from the second file_->Size(), memenv.cc:171-176 *)
  Definition skip_second (e : env) (h : nat) (n : N) : outcome env :=
    match hget (e_open e) h with
    | Some (OSeq a p) =>
        let! s2 := size (e_mem e) a in
        let available := u64 (s2 + 2 ^ 64 - p) in
        let n' := if (available <? n)%N then available else n in
        Ret (mk_env (e_mem e) (e_map e) (hput (e_open e) h (OSeq a (u64 (p + n')))))
    | _ => UB
    end.
  (** After a decrement: delete the FileState or not. *)
  Definition after (x : call) (r : result) (d : option nat) : pst :=
    match d with
    | Some a => Dying x a r
    | None => if locked x then Leaving x r else Done x r
    end.

  Inductive cstep (H : history) (t : nat) (cf : cconf) : option lab -> cconf -> Prop :=
  | c_call x : nth_error (ct cf) t = Some Idle -> may_call H (ct cf) x ->
      cstep H t cf (Some (Beg x)) (mk_cconf (ce cf) (cmu cf) (set_thr t (Called x) (ct cf)))
  | c_lock x : nth_error (ct cf) t = Some (Called x) -> locked x = true -> cmu cf = None ->
      cstep H t cf None (mk_cconf (ce cf) (Some t) (set_thr t (Inside x) (ct cf)))
  | c_plain x e' ev : nth_error (ct cf) t = Some (Inside x) -> plain (ce cf) x = true -> in_range H x ->
      exec alc alb dbg H (ce cf) x = Ret (e', ev) ->
      cstep H t cf (Some (Sec ev)) (mk_cconf e' (cmu cf) (set_thr t (Leaving x (ev_res ev)) (ct cf)))
  | c_trunc f a m : nth_error (ct cf) t = Some (Inside (NewWrite f)) -> map_find f (e_map (ce cf)) = Some a ->
      in_range H (NewWrite f) -> truncate (e_mem (ce cf)) a = Ret m ->
      cstep H t cf (Some (Sec (mk_event (NewWrite f) (RStat SOk))))
        (mk_cconf (mk_env m (e_map (ce cf)) (e_open (ce cf))) (cmu cf) (set_thr t (Constr f (length H) a) (ct cf)))
  | c_constr f h a e' : nth_error (ct cf) t = Some (Constr f h a) ->
      open_obj (ce cf) (e_mem (ce cf)) (e_map (ce cf)) h (OWrite a) = Ret e' ->
      cstep H t cf None (mk_cconf e' (cmu cf) (set_thr t (Leaving (NewWrite f) (RStat SOk)) (ct cf)))
  | c_remove x e' r d : nth_error (ct cf) t = Some (Inside x) -> remove_sect (ce cf) x = Ret (e', r, d) ->
      cstep H t cf (Some (Sec (mk_event x r))) (mk_cconf e' (cmu cf) (set_thr t (after x r d) (ct cf)))
  | c_destroy x a r m : nth_error (ct cf) t = Some (Dying x a r) -> destroy (e_mem (ce cf)) a = Ret m ->
      cstep H t cf None
        (mk_cconf (mk_env m (e_map (ce cf)) (e_open (ce cf))) (cmu cf) (set_thr t (after x r None) (ct cf)))
  | c_unlock x r : nth_error (ct cf) t = Some (Leaving x r) -> cmu cf = Some t ->
      cstep H t cf None (mk_cconf (ce cf) None (set_thr t (Done x r) (ct cf)))
  | c_free x e' ev : nth_error (ct cf) t = Some (Called x) -> locked x = false ->
      (forall h n, x <> SSkip h n) -> (forall h, x <> Delete h) -> in_range H x ->
      exec alc alb dbg H (ce cf) x = Ret (e', ev) ->
      cstep H t cf (Some (Sec ev)) (mk_cconf e' (cmu cf) (set_thr t (Done x (ev_res ev)) (ct cf)))
  | c_delete h e' d : nth_error (ct cf) t = Some (Called (Delete h)) -> delete_dec (ce cf) h = Ret (e', d) ->
      cstep H t cf (Some (Sec (mk_event (Delete h) (RStat SOk))))
        (mk_cconf e' (cmu cf) (set_thr t (after (Delete h) (RStat SOk) d) (ct cf)))
  | c_skip_err h n : nth_error (ct cf) t = Some (Called (SSkip h n)) -> skip_first (ce cf) h = Ret true ->
      cstep H t cf (Some (Sec (mk_event (SSkip h n) (RStat (SErr IOError msg_pos [])))))
        (mk_cconf (ce cf) (cmu cf) (set_thr t (Done (SSkip h n) (RStat (SErr IOError msg_pos []))) (ct cf)))
  | c_skip1 h n : nth_error (ct cf) t = Some (Called (SSkip h n)) -> skip_first (ce cf) h = Ret false ->
      cstep H t cf None (mk_cconf (ce cf) (cmu cf) (set_thr t (Skip2 h n) (ct cf)))
  | c_skip2 h n e' : nth_error (ct cf) t = Some (Skip2 h n) -> skip_second (ce cf) h n = Ret e' ->
      cstep H t cf (Some (Sec (mk_event (SSkip h n) (RStat SOk))))
        (mk_cconf e' (cmu cf) (set_thr t (Done (SSkip h n) (RStat SOk)) (ct cf)))
  | c_return x r : nth_error (ct cf) t = Some (Done x r) ->
      cstep H t cf (Some (Rtn r)) (mk_cconf (ce cf) (cmu cf) (set_thr t Idle (ct cf))).

  Definition add_lab (t : nat) (o : option lab) (tr : trace) : trace :=
    match o with Some l => (t, l) :: tr | None => tr end.

  (** All executions of [n] threads on a new environment. *)
  Inductive cruns (n : nat) : trace -> cconf -> Prop :=
  | cr_new : cruns n [] (mk_cconf env_new None (repeat Idle n))
  | cr_step tr cf t o cf' : cruns n tr cf -> cstep (sections tr) t cf o cf' ->
      cruns n (add_lab t o tr) cf'.
End Conc.

(** ** How one thread's calls must look *)
Definition proj (t : nat) (tr : trace) : list lab :=
  map snd (filter (fun p => fst p =? t) (rev tr)).
(** Finished calls one after the other, each taking effect once between its
    beginning and its return, with the result it returns; then perhaps an
    unfinished one. *)
Inductive calls_done : list lab -> Prop :=
| cd_nil : calls_done []
| cd_call l x r : calls_done l -> calls_done (l ++ [Beg x; Sec (mk_event x r); Rtn r]).
Definition thread_ok (l : list lab) : Prop :=
  calls_done l \/
  exists l0 x, calls_done l0 /\ (l = l0 ++ [Beg x] \/ exists r, l = l0 ++ [Beg x; Sec (mk_event x r)]).

(** A Skip during which another thread truncated its file: it returned OK, and
    when it took effect the file was shorter than the reader's position. *)
Definition no_lab (t : nat) (l : trace) : Prop := forall l0, ~ In (t, l0) l.
Definition truncated_in (new old : trace) (i : nat) : Prop :=
  exists k1 t f r k2, new = k1 ++ (t, Sec (mk_event (NewWrite f) r)) :: k2 /\ bound (sections (k2 ++ old)) f = Some i.
Definition raced (t : nat) (tr : trace) (ev : event) : Prop :=
  exists h n i, ev = mk_event (SSkip h n) (RStat SOk) /\ live (sections tr) h KSeq i /\
    (fsize (sections tr) i < pos (sections tr) h)%N /\
    exists new old, tr = new ++ old /\ no_lab t new /\ truncated_in new old i.
