(** PosixEnvSpec.v -- what one caller of the POSIX environment sees, told by the
    history of its calls alone.

    A history is the list of finished calls with their results, newest first.  A
    file object is named by the number of the call that made it (counted from the
    oldest, 0).  Files are numbered: those there at the start are below
    [old_count], a new one gets the next number. *)
From Coq Require Import List Arith NArith ZArith Lia Bool.
From Verif Require Import Outcome Status MemEnv PosixOs PosixWritable PosixWritableSpec PosixRead PosixEnv PosixFs.
Import ListNotations.

Inductive result :=
| RStat (s : status) | RBool (b : bool) | RNames (s : status) (l : list str)
| RSize (s : status) (n : N) | RData (s : status) (d : list N)
| RFault.      (* a Slice into a mapping that is not, or no longer, inside the file *)
Record pevent := mk_pev { pe_call : pcall; pe_res : result }.
Notation history := (list pevent).

(** The result as the caller sees it: a Slice into a mapping is what the file has
    there at the time. *)
Definition observe (v : view) (q : presult) : result :=
  match q with
  | QStat s => RStat s
  | QBool b => RBool b
  | QNames s l => RNames s l
  | QSize s n => RSize s n
  | QData s (Bytes d) => RData s d
  | QData s Untouched => RData s []
  | QData s (View base off n) =>
      match v_map v base with
      | Some (i, _) => if (off + n <=? N.of_nat (length (v_data v i)))%N
                       then RData s (firstn (N.to_nat n) (skipn (N.to_nat off) (v_data v i))) else RFault
      | None => RFault
      end
  end.

(** A readdir() among [l] failed: null, and errno set. *)
Definition readdir_failed (l : log) : bool :=
  existsb (fun e => match fst e with CReaddir _ => (a_ret (snd e) =? 0)%Z && negb (a_errno (snd e) =? 0)%Z | _ => false end) l.

(** The history up to call number [h]. *)
Definition before (H : history) (h : nat) : history := skipn (length H - h) H.

Definition done (ev : pevent) : bool := match pe_res ev with RStat SOk => true | _ => false end.

Section Spec.
  Variable old_count : nat.
  Variable old_name : str -> option nat.
  Variable old_data : nat -> list N.

  (** How many files there have been, and the file a name stands for.  Creating a
      name that is taken keeps the file; renaming a file to itself does nothing. *)
  Fixpoint names (H : history) : nat * (str -> option nat) :=
    match H with
    | [] => (old_count, old_name)
    | ev :: H' =>
        let (k, nm) := names H' in
        if negb (done ev) then (k, nm) else
        match pe_call ev with
        | PNewWrite f | PNewAppend f | PMkDir f =>
            match nm f with Some _ => (k, nm) | None => (S k, upd eqs nm f (Some k)) end
        | PRemove f | PRmDir f => (k, upd eqs nm f None)
        | PRename a b =>
            match nm a with
            | Some i => if match nm b with Some j => j =? i | None => false end then (k, nm)
                        else (k, upd eqs (upd eqs nm b (Some i)) a None)
            | None => (k, nm)
            end
        | _ => (k, nm)
        end
    end.
  Definition bound (H : history) (f : str) : option nat := snd (names H) f.

  (** File objects: kind, file, and the name used. *)
  Inductive kind := KSeq | KRand | KWrite.
  Definition opens (x : pcall) : option (kind * str) :=
    match x with
    | PNewSeq f => Some (KSeq, f) | PNewRand f => Some (KRand, f)
    | PNewWrite f | PNewAppend f => Some (KWrite, f)
    | _ => None
    end.
  Fixpoint opened (H : history) (h : nat) : option (kind * nat * str) :=
    match H with
    | [] => None
    | ev :: H' =>
        if h =? length H' then
          if done ev then
            match opens (pe_call ev) with
            | Some (k, f) => match bound H f with Some i => Some (k, i, f) | None => None end
            | None => None
            end
          else None
        else opened H' h
    end.
  Definition deletes (x : pcall) (h : nat) : bool := match x with PDelete h' => h' =? h | _ => false end.
  Fixpoint deleted (H : history) (h : nat) : bool :=
    match H with [] => false | ev :: H' => deletes (pe_call ev) h || deleted H' h end.
  Definition live (H : history) (h : nat) (k : kind) (i : nat) (f : str) : Prop :=
    opened H h = Some (k, i, f) /\ deleted H h = false.

  (** How a RandomAccessFile gets at its file: through a mapping while there are
      slots for mappings left, else through a descriptor of its own while there are
      slots for these, else by opening the file again for every Read.  [slots]: the
      free slots of both kinds, and the choice made for every object. *)
  Inductive access := ByMap | ByFd | ByName.
  Definition choose (free : Z * Z) : access :=
    if (0 <? fst free)%Z then ByMap else if (0 <? snd free)%Z then ByFd else ByName.
  Definition move (d : Z) (a : access) (free : Z * Z) : Z * Z :=
    match a with
    | ByMap => (fst free + d, snd free)%Z
    | ByFd => (fst free, snd free + d)%Z
    | ByName => free
    end.
  Fixpoint slots (free0 : Z * Z) (H : history) : (Z * Z) * (nat -> option access) :=
    match H with
    | [] => (free0, fun _ => None)
    | ev :: H' =>
        let (free, how) := slots free0 H' in
        match pe_call ev with
        | PNewRand _ =>
            if done ev then (move (-1) (choose free) free, upd Nat.eq_dec how (length H') (Some (choose free))) else (free, how)
        | PDelete h => (match how h with Some a => move 1 a free | None => free end, how)
        | _ => (free, how)
        end
    end.
  Definition access_of (free0 : Z * Z) (H : history) (h : nat) : option access := snd (slots free0 H) h.

  (** [ev] created or truncated file [i]. *)
  Definition is_file (o : option nat) (i : nat) : bool := match o with Some j => j =? i | None => false end.
  Definition truncates (ev : pevent) (H' : history) (i : nat) : bool :=
    match pe_call ev with PNewWrite f => done ev && is_file (bound (ev :: H') f) i | _ => false end.
  (** The object [h] writes file [i]. *)
  Definition writes (H : history) (h i : nat) : bool :=
    match opened H h with Some (KWrite, j, _) => j =? i | _ => false end.

  (** The bytes of file [i]: what was there, and everything appended since it was
      last truncated. *)
  Fixpoint contents (H : history) (i : nat) : list N :=
    match H with
    | [] => if i <? old_count then old_data i else []
    | ev :: H' =>
        if truncates ev H' i then [] else
        match pe_call ev with
        | PWAppend h d => if done ev && writes H' h i then contents H' i ++ d else contents H' i
        | _ => contents H' i
        end
    end.
  (** How much of that has been flushed, by Flush, Sync or Close. *)
  Fixpoint flushed (H : history) (i : nat) : nat :=
    match H with
    | [] => length (contents [] i)
    | ev :: H' =>
        if truncates ev H' i then 0 else
        match pe_call ev with
        | PWFlush h | PWSync h | PWClose h => if done ev && writes H' h i then length (contents H' i) else flushed H' i
        | _ => flushed H' i
        end
    end.
  (** What the file contained at the last successful Sync since it was truncated. *)
  Fixpoint synced_bytes (H : history) (i : nat) : list N :=
    match H with
    | [] => []
    | ev :: H' =>
        if truncates ev H' i then [] else
        match pe_call ev with
        | PWSync h => if done ev && writes H' h i then contents H' i else synced_bytes H' i
        | _ => synced_bytes H' i
        end
    end.
  (** The object that has file [i] open for writing. *)
  Fixpoint writer (H : history) (i : nat) : option nat :=
    match H with
    | [] => None
    | ev :: H' =>
        match pe_call ev with
        | PNewWrite f | PNewAppend f => if done ev && is_file (bound H f) i then Some (length H') else writer H' i
        | PWClose h | PDelete h => if is_file (writer H' i) h then None else writer H' i
        | _ => writer H' i
        end
    end.
  (** File [i] was used as it should: by one writer at a time, which is not used
      once closed, whose calls succeeded, and which was closed or flushed before
      it was deleted. *)
  Fixpoint clean (H : history) (i : nat) : Prop :=
    match H with
    | [] => True
    | ev :: H' =>
        clean H' i /\
        match pe_call ev with
        | PNewWrite f | PNewAppend f => done ev = true -> bound H f = Some i -> writer H' i = None
        | PWAppend h _ | PWFlush h | PWSync h | PWClose h =>
            writes H' h i = true -> writer H' i = Some h /\ done ev = true
        | PDelete h => writer H' i = Some h -> flushed H' i = length (contents H' i)
        | _ => True
        end
    end.

  (** The position of a sequential reader: 0 when it is made, moved by what was
      read and skipped since. *)
  Fixpoint pos (H : history) (h : nat) : Z :=
    match H with
    | [] => 0%Z
    | ev :: H' =>
        if h =? length H' then 0%Z else
        match pe_call ev, pe_res ev with
        | PSRead h' _, RData SOk d => if h' =? h then (pos H' h + Z.of_nat (length d))%Z else pos H' h
        | PSSkip h' n, RStat SOk => if h' =? h then (pos H' h + off_t n)%Z else pos H' h
        | _, _ => pos H' h
        end
    end.
  (** The file of [h] was truncated after [h] was made. *)
  Fixpoint truncated (H : history) (h : nat) : bool :=
    match H with
    | [] => false
    | ev :: H' =>
        if h =? length H' then false
        else truncated H' h || match opened H' h with Some (_, i, _) => truncates ev H' i | None => false end
    end.

  (** Calls about names only. *)
  Definition names_only (x : pcall) : bool :=
    match x with PExists _ | PChildren _ | PRemove _ | PSize _ | PRename _ _ | PMkDir _ | PRmDir _ => true | _ => false end.
  (** The live objects that hold a descriptor: sequential readers, random readers
      with one of their own, and writers not closed yet; and those that hold a
      mapping. *)
  Definition was_closed (H : history) (h : nat) : bool :=
    existsb (fun ev => match pe_call ev with PWClose h' => h' =? h | _ => false end) H.
  Definition holds_fd (free0 : Z * Z) (H : history) (h : nat) : Prop :=
    exists k i f, live H h k i f /\
      match k with KSeq => True | KRand => access_of free0 H h = Some ByFd | KWrite => was_closed H h = false end.
  Definition holds_map (free0 : Z * Z) (H : history) (h : nat) : Prop :=
    exists i f, live H h KRand i f /\ access_of free0 H h = Some ByMap.

  (** The entry [p] of a directory has not changed since a MANIFEST in the same
      directory was synced. *)
  Inductive entry_synced : history -> str -> Prop :=
  | es_sync ev H h i g d p :
      pe_call ev = PWSync h -> done ev = true -> opened H h = Some (KWrite, i, g) ->
      names_manifest g -> in_dir g d -> in_dir p d -> entry_synced (ev :: H) p
  | es_keep ev H p : entry_synced H p -> bound (ev :: H) p = bound H p -> entry_synced (ev :: H) p.

  (** What the kernel may have of file [i] when the buffer holds [B] bytes: all but
      the end, and at least what was flushed. *)
  Definition visible (B : nat) (H : history) (i : nat) (K : list N) : Prop :=
    exists pending, contents H i = K ++ pending /\ length pending <= B /\ flushed H i <= length K.

  (** [d] is what a read of [n] bytes at position [p] of [K] may deliver: fewer
      bytes are allowed, none only at the end. *)
  Definition piece (d K : list N) (p : nat) (n : N) : Prop :=
    d = firstn (length d) (skipn p K) /\ (N.of_nat (length d) <= n)%N /\ (d = [] -> n = 0%N \/ length K <= p).

  (** What a result says about names: OK only for what exists (or, for CreateDir,
      did not exist), NotFound only for what does not. *)
  Definition not_found (st : status) : Prop := match st with SErr NotFound _ _ => True | _ => False end.
  Definition no_place (H : history) (f : str) : Prop := f = [] \/ bound H (parent f) = None.
  Definition truthful (H : history) (x : pcall) (r : result) : Prop :=
    match x, r with
    | (PNewSeq f | PNewRand f | PRemove f | PRmDir f), RStat st => (st = SOk -> bound H f <> None) /\ (not_found st -> bound H f = None)
    | PSize f, RSize st _ => (st = SOk -> bound H f <> None) /\ (not_found st -> bound H f = None)
    | PExists f, RBool b => b = true -> bound H f <> None
    | PMkDir f, RStat st => (st = SOk -> bound H f = None) /\ (not_found st -> no_place H f)
    | (PNewWrite f | PNewAppend f), RStat st => not_found st -> no_place H f
    | PRename a b, RStat st => (st = SOk -> bound H a <> None) /\ (not_found st -> bound H a = None \/ no_place H b)
    | (PSRead _ _ | PRRead _ _ _), (RData _ _ | RFault) => True
    | PChildren f, RNames st _ => (st = SOk -> bound H f <> None) /\ (not_found st -> bound H f = None)
    | (PSSkip _ _ | PWAppend _ _ | PWClose _ | PWFlush _ | PWSync _), RStat _ => True
    | PDelete _, RStat st => st = SOk
    | _, _ => False
    end.

  (** What the caller must respect: objects are used while they live and as what
      they are; sizes are 64-bit, and an offset plus a size does not reach 2^63. *)
  Definition legal (H : history) (x : pcall) : Prop :=
    match x with
    | PSRead h n => (n < 2 ^ 64)%N /\ exists i f, live H h KSeq i f
    | PSSkip h n => (n < 2 ^ 64)%N /\ exists i f, live H h KSeq i f
    | PRRead h off n => (off + n < 2 ^ 63)%N /\ exists i f, live H h KRand i f
    | PWAppend h _ | PWClose h | PWFlush h | PWSync h => exists i f, live H h KWrite i f
    | PDelete h => exists k i f, live H h k i f
    | _ => True
    end.
End Spec.

(** A file system to start from. *)
Definition sane (v : view) : Prop :=
  (forall p i, v_name v p = Some i -> i < v_next v) /\
  (forall fd x, v_fd v fd = Some x -> (0 <= fd)%Z /\ (0 <= d_off x)%Z /\ d_ino x < v_next v) /\
  (forall b i n, v_map v b = Some (i, n) -> i < v_next v) /\
  v_name v [] = None /\
  (forall i, exists r, v_data v i = v_safe v i ++ r).

(** Histories of legal calls on the modelled environment, from a file system [v0],
    whose answers are those of a POSIX file system. *)
Section Runs.
  Variable dbg : bool.
  Variable B : nat.
  Variable strerror : Z -> str.
  Variable S : Type.
  Variable os : S -> syscall -> S * answer.
  Variable v0 : view.
  Inductive preach (s0 : S) (lim0 : limits) : history -> penv S -> view -> Prop :=
  | pr_start : preach s0 lim0 [] (mk_penv (mk_world s0 []) lim0 []) v0
  | pr_call H e v fuel x e' q l v' :
      preach s0 lim0 H e v -> legal (v_next v0) (v_name v0) H x ->
      pcall_ dbg B strerror S os fuel e (length H) x = Ret (e', q) ->
      w_log (p_w e') = w_log (p_w e) ++ l -> ksteps v l v' ->
      preach s0 lim0 (mk_pev x (observe v' q) :: H) e' v'.
End Runs.

(** ... on any kernel that keeps to [os_ok], from any sane file system. *)
Definition happens (dbg : bool) (B : nat) (strerror : Z -> str) (S : Type) (os : S -> syscall -> S * answer) (v0 : view) (s0 : S) (lim0 : limits)
    (H : history) (e : penv S) (v : view) : Prop :=
  os_ok os /\ sane v0 /\ preach dbg B strerror S os v0 s0 lim0 H e v.

(** The system call behind a call about names, and the name an error mentions. *)
Definition asks (x : pcall) : option (syscall * str) :=
  match x with
  | PExists f => Some (CAccess f, f)
  | PRemove f => Some (CUnlink f, f)
  | PSize f => Some (CStat f, f)
  | PRename a b => Some (CRename a b, a)
  | PMkDir d => Some (CMkdir d, d)
  | PRmDir d => Some (CRmdir d, d)
  | _ => None
  end.
Definition answers (strerror : Z -> str) (x : pcall) (ctx : str) (a : answer) : result :=
  let good := (a_ret a =? 0)%Z in
  let st := status_of strerror (if good then None else Some (ctx, a_errno a)) in
  match x with
  | PExists _ => RBool good
  | PSize _ => RSize st (if good then a_val a else 0%N)
  | _ => RStat st
  end.

(** ** A kernel all of whose answers are right *)
Definition served (c : syscall) : bool :=
  match c with CFdopen _ | CFwrite _ _ | CFflush _ | CFclose _ => false | _ => true end.
(** [R s v]: in state [s] of the kernel, the files are as in [v]. *)
Definition conforms {S} (os : S -> syscall -> S * answer) (R : S -> view -> Prop) : Prop :=
  forall s v c, R s v -> served c = true -> exists v', kstep v (c, snd (os s c)) v' /\ R (fst (os s c)) v'.
(** It does not interrupt reads for ever: one of [K] attempts in a row is not. *)
Fixpoint interrupts {S} (os : S -> syscall -> S * answer) (k : nat) (s : S) (fd : Z) (n : N) : bool :=
  match k with
  | O => true
  | Datatypes.S k' =>
      let r := os s (CRead fd n) in
      (a_ret (snd r) <? 0)%Z && (a_errno (snd r) =? EINTR)%Z && interrupts os k' (fst r) fd n
  end.
Definition patient {S} (os : S -> syscall -> S * answer) (K : nat) : Prop := forall s fd n, interrupts os K s fd n = false.
