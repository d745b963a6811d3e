(** MemEnv.v -- model of helpers/memenv/memenv.cc, one caller at a time
    (threads: MemEnvConc.v).

    Memory is two heaps: FileState objects and the 8192-byte arrays they own.
    Dereferencing null or a freed object, reading an uninitialised byte, writing
    outside an array or outside the caller's scratch buffer is [UB].  File
    objects (SequentialFileImpl etc.) are named by the number of the call that
    created them.  A Status is [SOk] or [SErr kind message message2] (their
    printed form is StatusProps.v C18).  std::map<std::string, FileState*> is the
    list of its (key, value) pairs in key order; std::string compares as unsigned
    bytes.  The inner mutexes do nothing for one caller. *)
From Coq Require Import List Arith NArith ZArith Lia Bool.
From Verif Require Import Outcome Heap Status.
Import ListNotations.
Local Open Scope outcome_scope.

Definition str := list N.
Inductive status := SOk | SErr (k : kind) (m1 m2 : str).

(** memenv.cc:138 *)
Definition kBlockSize : N := 8192%N.

(** memenv.cc:143-148; blocks_ holds addresses of arrays. *)
Record fstate := mk_fstate { fs_refs : Z; fs_blocks : list nat; fs_size : N }.
Record mem := mk_mem { m_files : heap fstate; m_blocks : heap block }.

(** ASCII of the literals used. *)
Definition msg_not_found : str := (* "File not found" *)
  [70;105;108;101;32;110;111;116;32;102;111;117;110;100]%N.
Definition msg_offset : str := (* "Offset greater than file size" *)
  [79;102;102;115;101;116;32;103;114;101;97;116;101;114;32;116;104;97;110;32;102;105;108;101;32;115;105;122;101]%N.
Definition msg_pos : str := (* "pos_ > file_->Slice()" *)
  [112;111;115;95;32;62;32;102;105;108;101;95;45;62;83;108;105;99;101;40;41]%N.

(** file-> *)
Definition getf (m : mem) (a : nat) : outcome fstate :=
  match hget (m_files m) a with Some f => Ret f | None => UB end.
Definition putf (m : mem) (a : nat) (f : fstate) : mem := mk_mem (hput (m_files m) a f) (m_blocks m).

Section Model.
  Variable alc : allocator.   (* operator new for FileState *)
  Variable alb : allocator.   (* operator new[] for the arrays *)
  Variable dbg : bool.

  (** new FileState(), memenv.cc:28 *)
  Definition new_file (m : mem) : mem * nat :=
    let a := alc (dom (m_files m)) in (putf m a (mk_fstate 0 [] 0), a).

  (** delete[] of every array, memenv.cc:61-63 *)
  Fixpoint free_blocks (bh : heap block) (l : list nat) : outcome (heap block) :=
    match l with
    | [] => Ret bh
    | b :: l' => match hget bh b with Some _ => free_blocks (hdel bh b) l' | None => UB end
    end.

  (** FileState::Truncate, memenv.cc:59-66 *)
  Definition truncate (m : mem) (a : nat) : outcome mem :=
    let! f := getf m a in
    let! bh := free_blocks (m_blocks m) (fs_blocks f) in
    Ret (mk_mem (hput (m_files m) a (mk_fstate (fs_refs f) [] 0)) bh).

  (** FileState::Ref, memenv.cc:31-34 (int overflow is UB) *)
  Definition ref (m : mem) (a : nat) : outcome mem :=
    let! f := getf m a in
    if (fs_refs f <? 2 ^ 31 - 1)%Z then Ret (putf m a (mk_fstate (fs_refs f + 1) (fs_blocks f) (fs_size f))) else UB.

  (** FileState::Unref, the part under refs_mutex_, memenv.cc:38-47; the boolean
      is do_delete *)
  Definition unref_dec (m : mem) (a : nat) : outcome (mem * bool) :=
    let! f := getf m a in
    let r := (fs_refs f - 1)%Z in
    let! _ := assert_ dbg (0 <=? r)%Z in
    Ret (putf m a (mk_fstate r (fs_blocks f) (fs_size f)), (r <=? 0)%Z).
  (** delete this, memenv.cc:49-51, with the destructor, memenv.cc:141 *)
  Definition destroy (m : mem) (a : nat) : outcome mem :=
    let! m2 := truncate m a in
    Ret (mk_mem (hdel (m_files m2) a) (m_blocks m2)).
  (** FileState::Unref, memenv.cc:37-52 *)
  Definition unref (m : mem) (a : nat) : outcome mem :=
    let! r := unref_dec m a in
    if snd r then destroy (fst r) a else Ret (fst r).

  (** FileState::Size, memenv.cc:54-57 *)
  Definition size (m : mem) (a : nat) : outcome N := let! f := getf m a in Ret (fs_size f).

  (** The copying loop of Read, memenv.cc:90-101: [n0] is the size of the
      caller's buffer, [dst] the index written next; returns the bytes copied. *)
  Fixpoint read_loop (fuel : nat) (bh : heap block) (blocks : list nat) (n0 : N) (block : nat) (off : N) (todo : N) (dst : N)
    : outcome (list N) :=
    if (todo =? 0)%N then Ret [] else
    match fuel with
    | O => OutOfFuel
    | S fuel' =>
        let avail := N.min (kBlockSize - off) todo in
        match nth_error blocks block with
        | None => UB
        | Some b =>
            match hget bh b with
            | None => UB
            | Some arr =>
                if (dst + avail <=? n0)%N then
                  let! bs := bread_n arr (N.to_nat off) (N.to_nat avail) in
                  let! rest := read_loop fuel' bh blocks n0 (S block) 0 (todo - avail) (dst + avail) in
                  Ret (bs ++ rest)
                else UB
            end
        end
    end.

  (** FileState::Read, memenv.cc:68-105; the returned list is the contents of
      *result (a slice of the first bytes of scratch). *)
  Definition read (m : mem) (a : nat) (offset n : N) : outcome (status * list N) :=
    let! f := getf m a in
    if (fs_size f <? offset)%N then Ret (SErr IOError msg_offset [], [])
    else
      let available := (fs_size f - offset)%N in
      let n' := if (available <? n)%N then available else n in
      if (n' =? 0)%N then Ret (SOk, [])
      else
        let! bs := read_loop (length (fs_blocks f) + 1) (m_blocks m) (fs_blocks f) n
                     (N.to_nat (offset / kBlockSize)) (offset mod kBlockSize) n' 0 in
        Ret (SOk, bs).

  (** FileState::Append, memenv.cc:107-135 *)
  Fixpoint append_loop (fuel : nat) (bh : heap block) (f : fstate) (src : list N) : outcome (heap block * fstate) :=
    match src with
    | [] => Ret (bh, f)
    | _ =>
        match fuel with
        | O => OutOfFuel
        | S fuel' =>
            let offset := (fs_size f mod kBlockSize)%N in
            let '(bh1, blocks1, avail0) :=
              if (offset =? 0)%N then
                let b := alb (dom bh) in
                (hput bh b (repeat None (N.to_nat kBlockSize)), fs_blocks f ++ [b], kBlockSize)
              else (bh, fs_blocks f, (kBlockSize - offset)%N) in
            let avail := N.min avail0 (N.of_nat (length src)) in
            match rev blocks1 with
            | [] => UB
            | b :: _ =>
                match hget bh1 b with
                | None => UB
                | Some arr =>
                    let! arr' := bput_bytes arr (N.to_nat offset) (firstn (N.to_nat avail) src) in
                    append_loop fuel' (hput bh1 b arr')
                      (mk_fstate (fs_refs f) blocks1 (u64 (fs_size f + avail))) (skipn (N.to_nat avail) src)
                end
            end
        end
    end.
  Definition append (m : mem) (a : nat) (data : list N) : outcome mem :=
    let! f := getf m a in
    let! r := append_loop (length data) (m_blocks m) f data in
    Ret (mk_mem (hput (m_files m) a (snd r)) (fst r)).

  (** ** std::map *)
  Fixpoint lex_ltb (x y : str) : bool :=
    match x, y with
    | [], [] => false
    | [], _ => true
    | _, [] => false
    | a :: x', b :: y' => if (a <? b)%N then true else if (b <? a)%N then false else lex_ltb x' y'
    end.
  Fixpoint str_eqb (x y : str) : bool :=
    match x, y with
    | [], [] => true
    | a :: x', b :: y' => (a =? b)%N && str_eqb x' y'
    | _, _ => false
    end.
  Definition fmap := list (str * nat).
  Fixpoint map_find (k : str) (m : fmap) : option nat :=
    match m with
    | [] => None
    | (k', v) :: m' => if str_eqb k k' then Some v else map_find k m'
    end.
  Fixpoint map_set (k : str) (v : nat) (m : fmap) : fmap :=
    match m with
    | [] => [(k, v)]
    | (k', v') :: m' => if lex_ltb k k' then (k, v) :: m
                        else if str_eqb k k' then (k, v) :: m'
                        else (k', v') :: map_set k v m'
    end.
  Fixpoint map_erase (k : str) (m : fmap) : fmap :=
    match m with
    | [] => []
    | (k', v) :: m' => if str_eqb k k' then m' else (k', v) :: map_erase k m'
    end.
  (** operator[]: a missing key is added with a null pointer (0). *)
  Definition map_index (k : str) (m : fmap) : fmap * nat :=
    match map_find k m with Some v => (m, v) | None => (map_set k 0 m, 0) end.

  (** ** Open files: memenv.cc:151-182 (with pos_), 184-197, 199-215 *)
  Inductive ofile := OSeq (file : nat) (pos : N) | ORand (file : nat) | OWrite (file : nat).
  Definition ofile_state (o : ofile) : nat := match o with OSeq a _ | ORand a | OWrite a => a end.

  (** The environment object, the heaps and the open files. *)
  Record env := mk_env { e_mem : mem; e_map : fmap; e_open : heap ofile }.
  Definition env_new : env := mk_env (mk_mem [] []) [] [].

  (** Constructors of the file objects: Ref, memenv.cc:153-155, 186, 201. *)
  Definition open_obj (e : env) (m : mem) (fm : fmap) (id : nat) (o : ofile) : outcome env :=
    let! m' := ref m (ofile_state o) in
    Ret (mk_env m' fm (hput (e_open e) id o)).
  (** Destructors: Unref, memenv.cc:157, 188, 203. *)
  Definition delete_obj (e : env) (id : nat) : outcome env :=
    match hget (e_open e) id with
    | None => UB
    | Some o => let! m := unref (e_mem e) (ofile_state o) in Ret (mk_env m (e_map e) (hdel (e_open e) id))
    end.

  (** memenv.cc:233-243 *)
  Definition new_sequential (e : env) (id : nat) (f : str) : outcome (env * status) :=
    match map_find f (e_map e) with
    | None => Ret (e, SErr IOError f msg_not_found)
    | Some _ => let '(fm, a) := map_index f (e_map e) in
                let! e' := open_obj e (e_mem e) fm id (OSeq a 0) in Ret (e', SOk)
    end.
  (** memenv.cc:245-255 *)
  Definition new_random (e : env) (id : nat) (f : str) : outcome (env * status) :=
    match map_find f (e_map e) with
    | None => Ret (e, SErr IOError f msg_not_found)
    | Some _ => let '(fm, a) := map_index f (e_map e) in
                let! e' := open_obj e (e_mem e) fm id (ORand a) in Ret (e', SOk)
    end.
  (** memenv.cc:257-275 *)
  Definition new_writable (e : env) (id : nat) (f : str) : outcome (env * status) :=
    let! r := match map_find f (e_map e) with
              | None => let '(m, a) := new_file (e_mem e) in
                        let! m := ref m a in Ret (m, map_set f a (e_map e), a)
              | Some a => let! m := truncate (e_mem e) a in Ret (m, e_map e, a)
              end in
    let '(m, fm, a) := r in
    let! e' := open_obj e m fm id (OWrite a) in Ret (e', SOk).
  (** memenv.cc:277-288: the new file is not stored in the map *)
  Definition new_appendable (e : env) (id : nat) (f : str) : outcome (env * status) :=
    let '(fm, a0) := map_index f (e_map e) in
    let! r := if a0 =? 0 then let '(m, a) := new_file (e_mem e) in let! m := ref m a in Ret (m, a)
              else Ret (e_mem e, a0) in
    let! e' := open_obj e (fst r) fm id (OWrite (snd r)) in Ret (e', SOk).
  (** memenv.cc:290-293 *)
  Definition file_exists (e : env) (f : str) : bool :=
    match map_find f (e_map e) with Some _ => true | None => false end.
  (** Slice::starts_with, slice.h (SliceProps.v C09) *)
  Fixpoint prefix_b (p s : str) : bool :=
    match p, s with
    | [], _ => true
    | a :: p', b :: s' => (a =? b)%N && prefix_b p' s'
    | _, [] => false
    end.
  (** memenv.cc:295-309; '/' is 47 *)
  Fixpoint children (d : str) (m : fmap) : list str :=
    match m with
    | [] => []
    | (f, _) :: m' =>
        if (length d + 1 <=? length f) && (nth (length d) f 0 =? 47)%N && prefix_b d f
        then skipn (length d + 1) f :: children d m'
        else children d m'
    end.
  (** memenv.cc:311-319 *)
  Definition remove_internal (m : mem) (fm : fmap) (f : str) : outcome (mem * fmap) :=
    match map_find f fm with
    | None => Ret (m, fm)
    | Some _ => let '(fm1, a) := map_index f fm in
                let! m := unref m a in Ret (m, map_erase f fm1)
    end.
  (** memenv.cc:321-329 *)
  Definition remove_file (e : env) (f : str) : outcome (env * status) :=
    match map_find f (e_map e) with
    | None => Ret (e, SErr IOError f msg_not_found)
    | Some _ => let! r := remove_internal (e_mem e) (e_map e) f in
                Ret (mk_env (fst r) (snd r) (e_open e), SOk)
    end.
  (** memenv.cc:335-344 *)
  Definition get_file_size (e : env) (f : str) : outcome (env * status * N) :=
    match map_find f (e_map e) with
    | None => Ret (e, SErr IOError f msg_not_found, 0%N)
    | Some _ => let '(fm, a) := map_index f (e_map e) in
                let! n := size (e_mem e) a in Ret (mk_env (e_mem e) fm (e_open e), SOk, n)
    end.
  (** memenv.cc:346-357; the right operand of = is evaluated first (C++17) *)
  Definition rename_file (e : env) (src target : str) : outcome (env * status) :=
    match map_find src (e_map e) with
    | None => Ret (e, SErr IOError src msg_not_found)
    | Some _ => let! r := remove_internal (e_mem e) (e_map e) target in
                let '(fm1, a) := map_index src (snd r) in
                let fm2 := map_set target a fm1 in
                Ret (mk_env (fst r) (map_erase src fm2) (e_open e), SOk)
    end.
  (** ~InMemoryEnv, memenv.cc:226-230 *)
  Fixpoint unref_all (m : mem) (fm : fmap) : outcome mem :=
    match fm with
    | [] => Ret m
    | (_, a) :: fm' => let! m' := unref m a in unref_all m' fm'
    end.
  Definition env_dtor (e : env) : outcome env :=
    let! m := unref_all (e_mem e) (e_map e) in Ret (mk_env m [] (e_open e)).

  (** SequentialFileImpl::Read, memenv.cc:159-165 *)
  Definition seq_read (e : env) (id : nat) (n : N) : outcome (env * status * list N) :=
    match hget (e_open e) id with
    | Some (OSeq a pos) =>
        let! r := read (e_mem e) a pos n in
        match fst r with
        | SOk => Ret (mk_env (e_mem e) (e_map e) (hput (e_open e) id (OSeq a (u64 (pos + N.of_nat (length (snd r)))))), SOk, snd r)
        | s => Ret (e, s, [])
        end
    | _ => UB
    end.
  (** SequentialFileImpl::Skip, memenv.cc:167-177; the subtraction is uint64_t *)
  Definition seq_skip (e : env) (id : nat) (n : N) : outcome (env * status) :=
    match hget (e_open e) id with
    | Some (OSeq a pos) =>
        let! s1 := size (e_mem e) a in
        if (s1 <? pos)%N then Ret (e, SErr IOError msg_pos [])
        else
          let! s2 := size (e_mem e) a in
          let available := u64 (s2 + 2 ^ 64 - pos) in
          let n' := if (available <? n)%N then available else n in
          Ret (mk_env (e_mem e) (e_map e) (hput (e_open e) id (OSeq a (u64 (pos + n')))), SOk)
    | _ => UB
    end.
  (** RandomAccessFileImpl::Read, memenv.cc:190-193 *)
  Definition rand_read (e : env) (id : nat) (off n : N) : outcome (status * list N) :=
    match hget (e_open e) id with
    | Some (ORand a) => read (e_mem e) a off n
    | _ => UB
    end.
  (** WritableFileImpl::Append, memenv.cc:205 *)
  Definition file_append (e : env) (id : nat) (data : list N) : outcome env :=
    match hget (e_open e) id with
    | Some (OWrite a) => let! m := append (e_mem e) a data in Ret (mk_env m (e_map e) (e_open e))
    | _ => UB
    end.
  (** Close, Flush, Sync: memenv.cc:207-211 *)
  Definition file_noop (e : env) (id : nat) : outcome status :=
    match hget (e_open e) id with Some (OWrite _) => Ret SOk | _ => UB end.
End Model.
