(** MemEnvOom.v -- the calls of helpers/memenv/memenv.cc (MemEnv.v) when operator
    new throws std::bad_alloc.

    For every call, the place where it may run out of memory is named by a
    [fault]; the functions below give the environment an exception leaves behind,
    or [None] if the call does not ask for that memory.  MutexLock
    (util/mutexlock.h) unlocks during unwinding, so later calls do not block.
    What nobody can reach any more after the exception is taken out of the heaps
    and counted ([th_files], [th_blocks]): it stays allocated for ever.  (A real
    allocator will not hand out that address again; the modelled one may.) *)
From Coq Require Import List Arith NArith ZArith Bool.
From Verif Require Import Outcome Heap Status MemEnv MemEnvSpec.
Import ListNotations.
Local Open Scope outcome_scope.

Inductive fault :=
| FStatus          (* new char[] of an error Status, util/status.cpp:20 *)
| FImpl            (* new SequentialFileImpl etc., memenv.cc:241, 253, 273, 286 *)
| FFile            (* new FileState(), memenv.cc:265, 282 *)
| FNode            (* the node of std::map or its key, memenv.cc:267, 279, 354 *)
| FBlock (n : nat) (* the (n+1)-th new char[kBlockSize] of an Append, memenv.cc:120 *)
| FPush (n : nat)  (* push_back of that array, memenv.cc:120 *)
| FName (n : nat). (* push_back of the (n+1)-th name, memenv.cc:305 *)

Record thrown := mk_thrown { th_env : env; th_files : nat; th_blocks : nat }.

(** return Status::IOError(...): the Status is the last thing made *)
Definition on_error (e : env) (s : status) : option thrown :=
  match s with SErr _ _ _ => Some (mk_thrown e 0 0) | SOk => None end.

Section Model.
  Variable alc : allocator.
  Variable alb : allocator.
  Variable dbg : bool.

  (** FileState::Append, memenv.cc:107-135: before an array is there, size_
      counts exactly the bytes copied so far.  Array without a place in blocks_:
      lost. *)
  Definition block_fault (f : fault) (bh : heap block) : option (heap block * nat) :=
    match f with
    | FBlock O => Some (bh, 0)
    | FPush O => let b := alb (dom bh) in
                 Some (hdel (hput bh b (repeat None (N.to_nat kBlockSize))) b, 1)
    | _ => None
    end.
  Definition next_block (f : fault) : fault :=
    match f with FBlock (S n) => FBlock n | FPush (S n) => FPush n | f => f end.
  Fixpoint append_loop_f (fuel : nat) (bh : heap block) (f : fstate) (src : list N) (ft : fault)
    : outcome (option (heap block * fstate * nat)) :=
    match src with
    | [] => Ret None
    | _ =>
        match fuel with
        | O => OutOfFuel
        | S fuel' =>
            let offset := (fs_size f mod kBlockSize)%N in
            match (if (offset =? 0)%N then block_fault ft bh else None) with
            | Some (bh', n) => Ret (Some (bh', f, n))
            | None =>
                let '(bh1, blocks1, avail0, ft1) :=
                  if (offset =? 0)%N then
                    let b := alb (dom bh) in
                    (hput bh b (repeat None (N.to_nat kBlockSize)), fs_blocks f ++ [b], kBlockSize, next_block ft)
                  else (bh, fs_blocks f, (kBlockSize - offset)%N, ft) in
                let avail := N.min avail0 (N.of_nat (length src)) in
                match rev blocks1 with
                | [] => UB
                | b :: _ =>
                    match hget bh1 b with
                    | None => UB
                    | Some arr =>
                        let! arr' := bput_bytes arr (N.to_nat offset) (firstn (N.to_nat avail) src) in
                        append_loop_f fuel' (hput bh1 b arr')
                          (mk_fstate (fs_refs f) blocks1 (u64 (fs_size f + avail))) (skipn (N.to_nat avail) src) ft1
                    end
                end
            end
        end
    end.
  (** WritableFileImpl::Append, memenv.cc:205 *)
  Definition file_append_f (e : env) (id : nat) (data : list N) (ft : fault) : outcome (option thrown) :=
    match hget (e_open e) id with
    | Some (OWrite a) =>
        let! f := getf (e_mem e) a in
        let! r := append_loop_f (length data) (m_blocks (e_mem e)) f data ft in
        match r with
        | None => Ret None
        | Some (bh, f', n) =>
            Ret (Some (mk_thrown (mk_env (mk_mem (hput (m_files (e_mem e)) a f') bh) (e_map e) (e_open e)) 0 n))
        end
    | _ => UB
    end.

  (** NewSequentialFile and NewRandomAccessFile, memenv.cc:233-255: the name is
      there, so operator[] adds nothing; operator new comes before Ref. *)
  Definition new_reader_f (e : env) (f : str) (ft : fault) : outcome (option thrown) :=
    match map_find f (e_map e), ft with
    | Some _, FImpl => Ret (Some (mk_thrown e 0 0))
    | _, _ => Ret None
    end.
  (** NewWritableFile, memenv.cc:257-275 *)
  Definition new_writable_f (e : env) (f : str) (ft : fault) : outcome (option thrown) :=
    match map_find f (e_map e) with
    | None =>
        match ft with
        | FFile => Ret (Some (mk_thrown e 0 0))
        | _ =>
            let '(m, a) := new_file alc (e_mem e) in
            let! m := ref m a in
            match ft with
            | FNode => (* the new FileState, one reference, is lost *)
                Ret (Some (mk_thrown (mk_env (mk_mem (hdel (m_files m) a) (m_blocks m)) (e_map e) (e_open e)) 1 0))
            | FImpl => Ret (Some (mk_thrown (mk_env m (map_set f a (e_map e)) (e_open e)) 0 0))
            | _ => Ret None
            end
        end
    | Some a =>
        let! m := truncate (e_mem e) a in
        match ft with
        | FImpl => Ret (Some (mk_thrown (mk_env m (e_map e) (e_open e)) 0 0))
        | _ => Ret None
        end
    end.
  (** NewAppendableFile, memenv.cc:277-288 *)
  Definition new_appendable_f (e : env) (f : str) (ft : fault) : outcome (option thrown) :=
    match map_find f (e_map e), ft with
    | None, FNode => Ret (Some (mk_thrown e 0 0))
    | _, _ =>
        let '(fm, a0) := map_index f (e_map e) in
        if a0 =? 0 then
          match ft with
          | FFile => Ret (Some (mk_thrown (mk_env (e_mem e) fm (e_open e)) 0 0))
          | FImpl => (* the new FileState is lost *) Ret (Some (mk_thrown (mk_env (e_mem e) fm (e_open e)) 1 0))
          | _ => Ret None
          end
        else match ft with
             | FImpl => Ret (Some (mk_thrown (mk_env (e_mem e) fm (e_open e)) 0 0))
             | _ => Ret None
             end
    end.
  (** GetChildren, memenv.cc:295-309 *)
  Definition children_f (e : env) (d : str) (ft : fault) : outcome (option thrown) :=
    match ft with
    | FName n => Ret (if n <? length (children d (e_map e)) then Some (mk_thrown e 0 0) else None)
    | _ => Ret None
    end.
  (** RenameFile, memenv.cc:346-357: [target] is removed first; then
      file_map_[src], then file_map_[target] may add a node. *)
  Definition rename_file_f (e : env) (src target : str) (ft : fault) : outcome (option thrown) :=
    match map_find src (e_map e) with
    | None => Ret None
    | Some _ =>
        let! r := remove_internal dbg (e_mem e) (e_map e) target in
        match ft with
        | FNode =>
            match map_find src (snd r), map_find target (snd r) with
            | Some _, Some _ => Ret None
            | _, _ => Ret (Some (mk_thrown (mk_env (fst r) (snd r) (e_open e)) 0 0))
            end
        | _ => Ret None
        end
    end.

  (** Call [x], event number [n], with no memory at [ft].  Calls not listed ask
      for no memory at all. *)
  Definition dispatch_f (e : env) (n : nat) (x : call) (ft : fault) : outcome (option thrown) :=
    match ft with
    | FStatus =>
        match x with
        | NewSeq f => let! r := new_sequential e n f in Ret (on_error (fst r) (snd r))
        | NewRand f => let! r := new_random e n f in Ret (on_error (fst r) (snd r))
        | Remove f => let! r := remove_file dbg e f in Ret (on_error (fst r) (snd r))
        | FileSize f => let! r := get_file_size e f in Ret (on_error (fst (fst r)) (snd (fst r)))
        | Rename a b => let! r := rename_file dbg e a b in Ret (on_error (fst r) (snd r))
        | SRead h k => let! r := seq_read e h k in Ret (on_error (fst (fst r)) (snd (fst r)))
        | SSkip h k => let! r := seq_skip e h k in Ret (on_error (fst r) (snd r))
        | RRead h o k => let! r := rand_read e h o k in Ret (on_error e (fst r))
        | _ => Ret None
        end
    | _ =>
        match x with
        | NewSeq f | NewRand f => new_reader_f e f ft
        | NewWrite f => new_writable_f e f ft
        | NewAppend f => new_appendable_f e f ft
        | Children d => children_f e d ft
        | Rename a b => rename_file_f e a b ft
        | WAppend h d => file_append_f e h d ft
        | _ => Ret None
        end
    end.
  Definition exec_f (H : history) (e : env) (x : call) (ft : fault) : outcome (option thrown) :=
    dispatch_f e (length H) x ft.
End Model.

(** ** Specification *)
(** Bytes copied by an Append to a file of [s] bytes before it needs its
    (n+1)-th new array: files are kept in arrays of 8192 bytes. *)
Definition kept (s : N) (n : nat) : nat := N.to_nat ((8192 - s mod 8192) mod 8192) + n * N.to_nat 8192.
Definition size_of (H : history) (h : nat) : N := match opened H h with Some (_, i) => fsize H i | None => 0%N end.

(** The calls, in order, whose effect the failed call has. *)
Definition as_if (H : history) (x : call) (ft : fault) : list call :=
  match x, ft with
  | NewWrite f, FImpl => [NewWrite f; Delete (length H)]
  | Rename a b, FNode => match bound H b with Some _ => [Remove b] | None => [] end
  | WAppend h d, (FBlock n | FPush n) => [WAppend h (firstn (kept (size_of H h) n) d)]
  | _, _ => []
  end.
(** Memory lost for ever: file objects, arrays. *)
Definition lost_files (x : call) (ft : fault) : nat := match x, ft with NewWrite _, FNode => 1 | _, _ => 0 end.
Definition lost_blocks (x : call) (ft : fault) : nat := match x, ft with WAppend _ _, FPush _ => 1 | _, _ => 0 end.

(** When the call needs that memory. *)
Definition needs (H : history) (x : call) (ft : fault) : Prop :=
  match x, ft with
  | (NewSeq f | NewRand f | Remove f | FileSize f | Rename f _), FStatus => bound H f = None
  | (SRead h _ | SSkip h _), FStatus => (size_of H h < pos H h)%N
  | RRead h off _, FStatus => (size_of H h < off)%N
  | (NewSeq f | NewRand f | NewAppend f), FImpl => bound H f <> None
  | NewWrite _, FImpl => True
  | NewWrite f, (FFile | FNode) => bound H f = None
  | Rename a _, FNode => bound H a <> None
  | WAppend h d, (FBlock n | FPush n) => kept (size_of H h) n < length d
  | Children d, FName n => exists l, Expect H (Children d) (RNames l) /\ n < length l
  | _, _ => False
  end.
