(** MemEnvSpec.v -- what a user of the in-memory environment sees.

    A history is the list of finished calls with their results, newest first;
    the number of an event is its position counted from the oldest (0).  A file
    object is named by the number of the event that opened it, a file by the
    number of the event that created it.  Nothing here mentions blocks, maps or
    reference counts. *)
From Coq Require Import List Arith NArith Bool Sorting.Sorted.
From Verif Require Import Outcome Heap Status MemEnv.
Import ListNotations.

Inductive call :=
| NewSeq (f : str) | NewRand (f : str) | NewWrite (f : str) | NewAppend (f : str)
| Exists (f : str) | Children (d : str) | Remove (f : str) | FileSize (f : str) | Rename (a b : str)
| MkDir (d : str) | RmDir (d : str)
| SRead (h : nat) (n : N) | SSkip (h : nat) (n : N)
| RRead (h : nat) (off n : N)
| WAppend (h : nat) (d : list N) | WClose (h : nat) | WFlush (h : nat) | WSync (h : nat)
| Delete (h : nat).

(** Status returned, with the data of the call if it has any. *)
Inductive result :=
| RStat (s : status)
| RBool (b : bool)
| RNames (l : list str)
| RSize (s : status) (n : N)
| RData (s : status) (d : list N).

Record event := mk_event { ev_call : call; ev_res : result }.
Definition history := list event.

(** The file a name stands for. *)
Fixpoint bound (H : history) (f : str) : option nat :=
  match H with
  | [] => None
  | ev :: H' =>
      match ev_call ev with
      | NewWrite g => if str_eqb f g then match bound H' f with Some i => Some i | None => Some (length H') end
                      else bound H' f
      | Remove g => if str_eqb f g then None else bound H' f
      | Rename a b => match bound H' a with
                      | None => bound H' f
                      | Some i => if str_eqb f a then None else if str_eqb f b then Some i else bound H' f
                      end
      | _ => bound H' f
      end
  end.

Inductive fkind := KSeq | KRand | KWrite.
(** The kind of a file object and the file it is for. *)
Definition opens (x : call) : option (fkind * str) :=
  match x with
  | NewSeq f => Some (KSeq, f) | NewRand f => Some (KRand, f)
  | NewWrite f | NewAppend f => Some (KWrite, f)
  | _ => None
  end.
Fixpoint opened (H : history) (h : nat) : option (fkind * nat) :=
  match H with
  | [] => None
  | ev :: H' =>
      if h =? length H' then
        match opens (ev_call ev) with
        | Some (k, f) => match bound H f with Some i => Some (k, i) | None => None end
        | None => None
        end
      else opened H' h
  end.
Fixpoint deleted (H : history) (h : nat) : bool :=
  match H with
  | [] => false
  | ev :: H' => match ev_call ev with Delete h' => h' =? h | _ => false end || deleted H' h
  end.
(** [h] is a live object of kind [k] on file [i]. *)
Definition live (H : history) (h : nat) (k : fkind) (i : nat) : Prop :=
  opened H h = Some (k, i) /\ deleted H h = false.

(** The bytes of file [i]: everything appended since it was last truncated. *)
Fixpoint contents (H : history) (i : nat) : list N :=
  match H with
  | [] => []
  | ev :: H' =>
      match ev_call ev with
      | NewWrite f => match bound H' f with
                      | Some j => if j =? i then [] else contents H' i
                      | None => contents H' i
                      end
      | WAppend h d => match opened H' h with
                       | Some (_, j) => if j =? i then contents H' i ++ d else contents H' i
                       | None => contents H' i
                       end
      | _ => contents H' i
      end
  end.
Definition fsize (H : history) (i : nat) : N := N.of_nat (length (contents H i)).

(** Where Skip(n) leaves a reader at position [p] when the file has [s] bytes: at
    most at the end of the file.  (The second case is met only when another
    thread truncates the file during the call, see C51.) *)
Definition skipped (p n s : N) : N :=
  if (p <=? s)%N then (p + N.min n (s - p))%N
  else if (n <=? s + 2 ^ 64 - p)%N then ((p + n) mod 2 ^ 64)%N else s.

(** The position of a sequential reader: what was delivered and skipped. *)
Fixpoint pos (H : history) (h : nat) : N :=
  match H with
  | [] => 0%N
  | ev :: H' =>
      match ev_call ev, ev_res ev with
      | SRead h' _, RData SOk d => if h' =? h then (pos H' h + N.of_nat (length d))%N else pos H' h
      | SSkip h' n, RStat SOk =>
          if h' =? h then
            match opened H' h with
            | Some (_, i) => skipped (pos H' h) n (fsize H' i)
            | None => pos H' h
            end
          else pos H' h
      | _, _ => pos H' h
      end
  end.

(** The part of [d] from [off], at most [n] bytes. *)
Definition part (d : list N) (off n : N) : list N := firstn (N.to_nat n) (skipn (N.to_nat off) d).

(** Objects not yet deleted. *)
Definition live_b (H : history) (h : nat) : bool :=
  match opened H h with Some _ => negb (deleted H h) | None => false end.
Definition live_count (H : history) : nat := length (filter (live_b H) (seq 0 (length H))).

(** What the caller must respect: file objects are used while they live and as
    what they are; sizes are size_t; file sizes stay below 2^64; fewer than
    2^31-2 file objects live at a time; NewAppendableFile is called for existing
    files only (see C46). *)
Definition legal (H : history) (x : call) : Prop :=
  match x with
  | NewSeq _ | NewRand _ | NewWrite _ => (N.of_nat (live_count H) < 2 ^ 31 - 2)%N
  | NewAppend f => bound H f <> None /\ (N.of_nat (live_count H) < 2 ^ 31 - 2)%N
  | SRead h n | SSkip h n => (n < 2 ^ 64)%N /\ exists i, live H h KSeq i
  | RRead h off n => (off < 2 ^ 64)%N /\ (n < 2 ^ 64)%N /\ exists i, live H h KRand i
  | WAppend h d => exists i, live H h KWrite i /\ (fsize H i + N.of_nat (length d) < 2 ^ 64)%N
  | WClose h | WFlush h | WSync h => exists i, live H h KWrite i
  | Delete h => exists k i, live H h k i
  | _ => True
  end.

(** The file object a call is made on. *)
Definition handle_of (x : call) : option nat :=
  match x with
  | SRead h _ | SSkip h _ | RRead h _ _ | WAppend h _ | WClose h | WFlush h | WSync h | Delete h => Some h
  | _ => None
  end.

(** What each call returns. *)
Definition nf (f : str) : status := SErr IOError f msg_not_found.
Definition Expect (H : history) (x : call) (r : result) : Prop :=
  match x with
  | NewSeq f | NewRand f | Remove f =>
      r = RStat (match bound H f with Some _ => SOk | None => nf f end)
  | Rename a _ => r = RStat (match bound H a with Some _ => SOk | None => nf a end)
  | NewWrite _ | NewAppend _ | MkDir _ | RmDir _ | WAppend _ _ | WClose _ | WFlush _ | WSync _ | Delete _ => r = RStat SOk
  | Exists f => r = RBool (match bound H f with Some _ => true | None => false end)
  | Children d => exists l, r = RNames l /\ StronglySorted (fun a b => lex_ltb a b = true) l /\
                    forall g, In g l <-> bound H (d ++ [47%N] ++ g) <> None
  | FileSize f => match bound H f with Some i => r = RSize SOk (fsize H i) | None => r = RSize (nf f) 0%N end
  | SRead h n => exists i, live H h KSeq i /\
      r = if (fsize H i <? pos H h)%N then RData (SErr IOError msg_offset []) []
          else RData SOk (part (contents H i) (pos H h) n)
  | SSkip h n => exists i, live H h KSeq i /\
      r = RStat (if (fsize H i <? pos H h)%N then SErr IOError msg_pos [] else SOk)
  | RRead h off n => exists i, live H h KRand i /\
      r = if (fsize H i <? off)%N then RData (SErr IOError msg_offset []) []
          else RData SOk (part (contents H i) off n)
  end.

(** ** The driver: one call on the modelled environment.  Event number [n]. *)
Local Open Scope outcome_scope.
Section Run.
  Variables (alc alb : Heap.allocator) (dbg : bool).
  Definition dispatch (e : env) (n : nat) (x : call) : outcome (env * result) :=
    match x with
    | NewSeq f => let! r := new_sequential e n f in Ret (fst r, RStat (snd r))
    | NewRand f => let! r := new_random e n f in Ret (fst r, RStat (snd r))
    | NewWrite f => let! r := new_writable alc e n f in Ret (fst r, RStat (snd r))
    | NewAppend f => let! r := new_appendable alc e n f in Ret (fst r, RStat (snd r))
    | Exists f => Ret (e, RBool (file_exists e f))
    | Children d => Ret (e, RNames (children d (e_map e)))
    | Remove f => let! r := remove_file dbg e f in Ret (fst r, RStat (snd r))
    | FileSize f => let! r := get_file_size e f in Ret (fst (fst r), RSize (snd (fst r)) (snd r))
    | Rename a b => let! r := rename_file dbg e a b in Ret (fst r, RStat (snd r))
    | MkDir _ | RmDir _ => Ret (e, RStat SOk)        (* memenv.cc:331, 333 *)
    | SRead h k => let! r := seq_read e h k in Ret (fst (fst r), RData (snd (fst r)) (snd r))
    | SSkip h k => let! r := seq_skip e h k in Ret (fst r, RStat (snd r))
    | RRead h o k => let! r := rand_read e h o k in Ret (e, RData (fst r) (snd r))
    | WAppend h d => let! e' := file_append alb e h d in Ret (e', RStat SOk)
    | WClose h | WFlush h | WSync h => let! s := file_noop e h in Ret (e, RStat s)
    | Delete h => let! e' := delete_obj dbg e h in Ret (e', RStat SOk)
    end.
  Definition exec (H : history) (e : env) (x : call) : outcome (env * event) :=
    let! r := dispatch e (length H) x in Ret (fst r, mk_event x (snd r)).

  Inductive reach : history -> env -> Prop :=
  | reach_new : reach [] env_new
  | reach_call H e x e' ev : reach H e -> legal H x -> exec H e x = Ret (e', ev) -> reach (ev :: H) e'.
End Run.

(** ** Memory *)
Definition owned (H : history) (e : env) : Prop :=
    (forall a, (exists f, hget (m_files (e_mem e)) a = Some f) <->
               (exists f, map_find f (e_map e) = Some a) \/ (exists h o, hget (e_open e) h = Some o /\ ofile_state o = a)) /\
    (forall b, (exists x, hget (m_blocks (e_mem e)) b = Some x) <->
               (exists a f, hget (m_files (e_mem e)) a = Some f /\ In b (fs_blocks f))) /\
    (forall h, (exists o, hget (e_open e) h = Some o) <-> exists k i, live H h k i).
(** Deleting file objects. *)
Fixpoint delete_all (dbg : bool) (e : env) (l : list nat) : outcome env :=
  match l with [] => Ret e | h :: l' => let! e' := delete_obj dbg e h in delete_all dbg e' l' end.
