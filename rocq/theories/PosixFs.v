(** PosixFs.v -- the part of POSIX about files that theorems on the whole of
    PosixEnv rely on (specification; nothing here is lsmdb code).

    A [view] is what the kernel knows.  [kstep v (c, a) v']: answering [a] to the
    call [c] is right in [v] and leads to [v'].  Calls may fail at any time
    without effect, reads and writes may be short.  Path names are compared as
    strings (no symbolic links, no two spellings of a path), no directory is
    renamed, and nobody else changes the files.  Files are numbered in order of
    creation and numbers are not used again. *)
From Coq Require Import List Arith NArith ZArith Lia Bool.
From Verif Require Import Outcome Status MemEnv PosixOs PosixWritable.
Import ListNotations.

Definition eqs : forall a b : str, {a = b} + {a <> b} := list_eq_dec N.eq_dec.
Definition upd {A B} (eqd : forall a b : A, {a = b} + {a <> b}) (f : A -> B) (k : A) (x : B) : A -> B :=
  fun y => if eqd y k then x else f y.

(** An open file: the file, the position, O_APPEND. *)
Record fdesc := mk_fdesc { d_ino : nat; d_off : Z; d_app : bool }.
(** An open directory: its path, how often entries had been changed when it was
    opened, the names readdir() has delivered. *)
Record dstream := mk_dstream { ds_path : str; ds_since : nat; ds_given : list str }.
Record view := mk_view {
  v_name : str -> option nat;              (* directory entries *)
  v_data : nat -> list N;                  (* contents *)
  v_fd : Z -> option fdesc;                (* open descriptors *)
  v_map : N -> option (nat * N);           (* mappings: file and length, by address *)
  v_dir : N -> option dstream;             (* open directory streams *)
  v_next : nat;                            (* number of the next file *)
  v_safe : nat -> list N;                  (* what a crash cannot take from a file *)
  v_sure : str -> bool;                    (* this entry is on disk as it is in [v_name] *)
  v_past : list (str -> option nat)        (* the directory entries before each change, newest first *)
}.

Definition with_fd v fd x := mk_view (v_name v) (v_data v) (upd Z.eq_dec (v_fd v) fd x) (v_map v) (v_dir v) (v_next v) (v_safe v) (v_sure v) (v_past v).
Definition with_map v b x := mk_view (v_name v) (v_data v) (v_fd v) (upd N.eq_dec (v_map v) b x) (v_dir v) (v_next v) (v_safe v) (v_sure v) (v_past v).
Definition with_dir v d x := mk_view (v_name v) (v_data v) (v_fd v) (v_map v) (upd N.eq_dec (v_dir v) d x) (v_next v) (v_safe v) (v_sure v) (v_past v).
(** changing an entry: it is not sure until the directory is synced *)
Definition with_name v p x := mk_view (upd eqs (v_name v) p x) (v_data v) (v_fd v) (v_map v) (v_dir v) (v_next v) (v_safe v) (upd eqs (v_sure v) p false) (v_name v :: v_past v).
Definition with_data v i d s := mk_view (v_name v) (upd Nat.eq_dec (v_data v) i d) (v_fd v) (v_map v) (v_dir v) (v_next v) (upd Nat.eq_dec (v_safe v) i s) (v_sure v) (v_past v).
(** a new file under the name [p] *)
Definition create v p :=
  let v := with_data (with_name v p (Some (v_next v))) (v_next v) [] [] in
  mk_view (v_name v) (v_data v) (v_fd v) (v_map v) (v_dir v) (S (v_next v)) (v_safe v) (v_sure v) (v_past v).

(** Writing [d] at position [p]; a gap is filled with zeros. *)
Definition put (data : list N) (p : nat) (d : list N) : list N :=
  firstn p (data ++ repeat 0%N (p - length data)) ++ d ++ skipn (p + length d) data.

(** The directory a path is in. *)
Definition parent (p : str) : str :=
  match rfind slash p with
  | None => dot
  | Some O => [slash]
  | Some k => firstn k p
  end.
(** fsync() on file [i]: contents and, if it is a directory, entries. *)
Definition synced v i :=
  mk_view (v_name v) (v_data v) (v_fd v) (v_map v) (v_dir v) (v_next v)
    (upd Nat.eq_dec (v_safe v) i (v_data v i))
    (fun p => v_sure v p || match v_name v (parent p) with Some j => j =? i | None => false end) (v_past v).

(** Calls that change nothing the model keeps, whatever they answer. *)
Definition neutral (c : syscall) : bool :=
  match c with CSetlk _ _ => true | _ => false end.
(** Calls whose failure is an answer of -1 and has no effect. *)
Definition fallible (c : syscall) : bool :=
  match c with
  | COpen _ _ | CWrite _ _ | CRead _ _ | CPread _ _ _ | CLseek _ _ | CFsync _ | CStat _ | CMmap _ _
  | CAccess _ | CUnlink _ | CMkdir _ | CRmdir _ | CRename _ _ => true
  | _ => false
  end.
(** ENOENT is answered only for what does not exist: the path itself, or the
    directory something is to be created in. *)
Definition noent_ok (v : view) (c : syscall) : Prop :=
  match c with
  | COpen p RdOnly | CStat p | CAccess p | CUnlink p | CRmdir p => v_name v p = None
  | COpen p _ | CMkdir p => p = [] \/ v_name v (parent p) = None
  | CRename p q => v_name v p = None \/ q = [] \/ v_name v (parent q) = None
  | _ => False
  end.

(** The names in a directory, with no slash in them. *)
Definition dir_prefix (d : str) : str := if eqs d dot then [] else if eqs d [slash] then [slash] else d ++ [slash].
Definition lists (names : str -> option nat) (d g : str) : Prop := ~ In slash g /\ names (dir_prefix d ++ g) <> None.
Definition child (v : view) (d g : str) : Prop := lists (v_name v) d g.
(** The directory entries at all moments since [s] was opened.  POSIX, readdir():
    an entry that is there all the time is delivered once; if it is added or
    removed after opendir(), whether it is delivered is unspecified. *)
Definition names_since (v : view) (s : dstream) : list (str -> option nat) :=
  v_name v :: firstn (length (v_past v) - ds_since s) (v_past v).
Definition there_once (v : view) (s : dstream) (g : str) : Prop := exists names, In names (names_since v s) /\ lists names (ds_path s) g.
Definition there_always (v : view) (s : dstream) (g : str) : Prop := forall names, In names (names_since v s) -> lists names (ds_path s) g.
Definition dots (g : str) : Prop := g = dot \/ g = dot ++ dot.

Inductive kstep (v : view) : event -> view -> Prop :=
| k_neutral c a : neutral c = true -> kstep v (c, a) v
| k_fail c a : fallible c = true -> a_ret a = (-1)%Z -> (a_errno a = ENOENT -> noent_ok v c) -> kstep v (c, a) v
| k_open_read p a i :
    (0 <= a_ret a)%Z -> v_fd v (a_ret a) = None -> v_name v p = Some i ->
    kstep v (COpen p RdOnly, a) (with_fd v (a_ret a) (Some (mk_fdesc i 0 false)))
| k_open_trunc p a i :
    (0 <= a_ret a)%Z -> v_fd v (a_ret a) = None -> v_name v p = Some i ->
    kstep v (COpen p WrTrunc, a) (with_fd (with_data v i [] []) (a_ret a) (Some (mk_fdesc i 0 false)))
| k_open_append p a i :
    (0 <= a_ret a)%Z -> v_fd v (a_ret a) = None -> v_name v p = Some i ->
    kstep v (COpen p WrAppend, a) (with_fd v (a_ret a) (Some (mk_fdesc i 0 true)))
| k_open_rdwr p a i :
    (0 <= a_ret a)%Z -> v_fd v (a_ret a) = None -> v_name v p = Some i ->
    kstep v (COpen p RdWrCreat, a) (with_fd v (a_ret a) (Some (mk_fdesc i 0 false)))
| k_open_new p fl a :
    (0 <= a_ret a)%Z -> v_fd v (a_ret a) = None -> v_name v p = None -> p <> [] -> fl <> RdOnly ->
    kstep v (COpen p fl, a)
      (with_fd (create v p) (a_ret a) (Some (mk_fdesc (v_next v) 0 (match fl with WrAppend => true | _ => false end))))
| k_close fd a : kstep v (CClose fd, a) (with_fd v fd None)
| k_write fd d a x :
    (0 <= a_ret a <= Z.of_nat (length d))%Z -> v_fd v fd = Some x ->
    kstep v (CWrite fd d, a)
      (let i := d_ino x in
       let p := if d_app x then length (v_data v i) else Z.to_nat (d_off x) in
       let d := firstn (Z.to_nat (a_ret a)) d in
       with_fd (with_data v i (put (v_data v i) p d) (firstn p (v_safe v i))) fd
         (Some (mk_fdesc i (Z.of_nat (p + length d)) (d_app x))))
| k_read fd n a x :
    v_fd v fd = Some x -> a_ret a = Z.of_nat (length (a_data a)) -> (N.of_nat (length (a_data a)) <= n)%N ->
    a_data a = firstn (length (a_data a)) (skipn (Z.to_nat (d_off x)) (v_data v (d_ino x))) ->
    (a_data a = [] -> n = 0%N \/ length (v_data v (d_ino x)) <= Z.to_nat (d_off x)) ->
    kstep v (CRead fd n, a) (with_fd v fd (Some (mk_fdesc (d_ino x) (d_off x + a_ret a) (d_app x))))
| k_pread fd n off a x :
    v_fd v fd = Some x -> (0 <= off)%Z -> a_ret a = Z.of_nat (length (a_data a)) -> (N.of_nat (length (a_data a)) <= n)%N ->
    a_data a = firstn (length (a_data a)) (skipn (Z.to_nat off) (v_data v (d_ino x))) ->
    (a_data a = [] -> n = 0%N \/ length (v_data v (d_ino x)) <= Z.to_nat off) ->
    kstep v (CPread fd n off, a) v
| k_lseek fd off a x :
    v_fd v fd = Some x -> a_ret a = (d_off x + off)%Z -> (0 <= a_ret a)%Z ->
    kstep v (CLseek fd off, a) (with_fd v fd (Some (mk_fdesc (d_ino x) (a_ret a) (d_app x))))
| k_fsync fd a x : v_fd v fd = Some x -> a_ret a = 0%Z -> kstep v (CFsync fd, a) (synced v (d_ino x))
| k_stat p a i : a_ret a = 0%Z -> v_name v p = Some i -> a_val a = N.of_nat (length (v_data v i)) -> kstep v (CStat p, a) v
| k_mmap fd len a x :
    (0 <= a_ret a)%Z -> v_fd v fd = Some x -> v_map v (a_val a) = None -> (0 < len)%N ->
    kstep v (CMmap fd len, a) (with_map v (a_val a) (Some (d_ino x, len)))
| k_munmap base len a i : v_map v base = Some (i, len) -> kstep v (CMunmap base len, a) (with_map v base None)
| k_munmap_bad base len a : (forall i, v_map v base <> Some (i, len)) -> (a_ret a < 0)%Z -> kstep v (CMunmap base len, a) v
| k_access p a : a_ret a = 0%Z -> v_name v p <> None -> kstep v (CAccess p, a) v
| k_unlink p a : a_ret a = 0%Z -> v_name v p <> None -> kstep v (CUnlink p, a) (with_name v p None)
| k_mkdir p a : a_ret a = 0%Z -> v_name v p = None -> p <> [] -> kstep v (CMkdir p, a) (create v p)
| k_rmdir p a : a_ret a = 0%Z -> v_name v p <> None -> kstep v (CRmdir p, a) (with_name v p None)
| k_rename_same p q a i : a_ret a = 0%Z -> v_name v p = Some i -> v_name v q = Some i -> kstep v (CRename p q, a) v
| k_rename p q a i : a_ret a = 0%Z -> v_name v p = Some i -> v_name v q <> Some i -> q <> [] ->
    kstep v (CRename p q, a) (with_name (with_name v q (Some i)) p None)
| k_opendir_fail p a : a_val a = 0%N -> (a_errno a = ENOENT -> v_name v p = None) -> kstep v (COpendir p, a) v
| k_opendir p a l :
    a_val a <> 0%N -> v_dir v (a_val a) = None -> v_name v p <> None ->
    (forall g, child v p g -> In g l) (* a directory is finite *) ->
    kstep v (COpendir p, a) (with_dir v (a_val a) (Some (mk_dstream p (length (v_past v)) [])))
| k_readdir d a s :
    a_ret a <> 0%Z -> v_dir v d = Some s -> (dots (a_data a) \/ there_once v s (a_data a)) ->
    (In (a_data a) (ds_given s) -> ~ dots (a_data a) /\ ~ there_always v s (a_data a)) ->
    kstep v (CReaddir d, a) (with_dir v d (Some (mk_dstream (ds_path s) (ds_since s) (ds_given s ++ [a_data a]))))
| k_readdir_end d a s :
    a_ret a = 0%Z -> a_errno a = 0%Z -> v_dir v d = Some s -> (forall g, dots g \/ there_always v s g -> In g (ds_given s)) ->
    kstep v (CReaddir d, a) v
| k_readdir_fail d a : a_ret a = 0%Z -> a_errno a <> 0%Z -> kstep v (CReaddir d, a) v
| k_closedir d a : kstep v (CClosedir d, a) (with_dir v d None).

Inductive ksteps : view -> log -> view -> Prop :=
| ks_nil v : ksteps v [] v
| ks_cons v e v1 l v2 : kstep v e v1 -> ksteps v1 l v2 -> ksteps v (e :: l) v2.

(** What may be on the disk after a crash: entries that were sure are there, and
    every file that is there starts with what was safe. *)
Definition crash_disk (v : view) (name : str -> option nat) (data : nat -> list N) : Prop :=
  (forall p, v_sure v p = true -> name p = v_name v p) /\
  (forall p i, name p = Some i -> exists rest, data i = v_safe v i ++ rest).
