(** Status.v -- model of include/lsmdb/status.h and util/status.cc.

    A Status object is its single field state_: [None] is nullptr, [Some a] a
    new[] array at heap address [a].  A heap block is a list of cells, [None]
    being an uninitialised char.  Slice arguments are their byte contents
    (the slices are assumed to point to live memory).  The host is little
    endian (memcpy of a uint32_t). *)
From Coq Require Import List Arith NArith Lia Bool.
From Verif Require Import Outcome Heap.
Import ListNotations.
Local Open Scope outcome_scope.

Definition block := list (option N).
Definition sheap := heap block.
Definition state_ptr := option nat.

(** status.h:75-82 *)
Definition kOk : N := 0%N.
Definition kNotFound : N := 1%N.
Definition kCorruption : N := 2%N.
Definition kNotSupported : N := 3%N.
Definition kInvalidArgument : N := 4%N.
Definition kIOError : N := 5%N.

(** The five error factories, by name. *)
Inductive kind := NotFound | Corruption | NotSupported | InvalidArgument | IOError.

(** The code each factory passes: status.h:33, 37, 41, 45, 49 *)
Definition factory_code (k : kind) : N :=
  match k with
  | NotFound => kNotFound
  | Corruption => kCorruption
  | NotSupported => kNotSupported
  | InvalidArgument => kInvalidArgument
  | IOError => kIOError
  end.

(** Write [bs] at offset [p]: each byte must be inside the block. *)
Fixpoint bput (m : block) (p : nat) (b : N) : outcome block :=
  match m, p with
  | [], _ => UB
  | _ :: t, O => Ret (Some b :: t)
  | c :: t, S p' => let! t' := bput t p' b in Ret (c :: t')
  end.

(** memcpy into a heap block at offset [p] *)
Fixpoint bput_bytes (m : block) (p : nat) (bs : list N) : outcome block :=
  match bs with
  | [] => Ret m
  | b :: r => let! m' := bput m p b in bput_bytes m' (S p) r
  end.

(** Read one initialised char. *)
Definition bread (m : block) (p : nat) : outcome N :=
  match nth_error m p with Some (Some b) => Ret b | _ => UB end.

(** Read [n] consecutive initialised chars from offset [p]. *)
Fixpoint bread_n (m : block) (p n : nat) : outcome (list N) :=
  match n with
  | O => Ret []
  | S n' => let! b := bread m p in let! r := bread_n m (S p) n' in Ret (b :: r)
  end.

(** Object representation of a uint32_t on a little-endian host. *)
Definition le32 (v : N) : list N :=
  [ u8 v; u8 (N.shiftr v 8); u8 (N.shiftr v 16); u8 (N.shiftr v 24) ].
Definition unle32 (bs : list N) : N :=
  match bs with
  | [b0; b1; b2; b3] => (b0 + 256 * b1 + 65536 * b2 + 16777216 * b3)%N
  | _ => 0%N
  end.

(** Dereference of the array a state_ points to. *)
Definition deref (h : sheap) (a : nat) : outcome block :=
  match hget h a with Some b => Ret b | None => UB end.

(** delete[] p : null is a no-op; a dead address is UB (double free). *)
Definition delete_arr (h : sheap) (p : state_ptr) : outcome sheap :=
  match p with
  | None => Ret h
  | Some a => match hget h a with Some _ => Ret (hdel h a) | None => UB end
  end.

(** new char[n] *)
Definition new_arr (alc : allocator) (h : sheap) (n : N) : sheap * nat :=
  let a := alc (dom h) in (hput h a (repeat None (N.to_nat n)), a).

Section Model.
  Variable alc : allocator.

  (** status.cc:13-24.  size + 5 is uint32_t arithmetic.  memcpy copies
      initialised cells only. *)
  Definition CopyState (h : sheap) (a : nat) : outcome (sheap * nat) :=
    let! src := deref h a in
    let! sz := bread_n src 0 4 in
    let size := unle32 sz in
    let '(h1, r) := new_arr alc h (u32 (size + 5)) in
    let! data := bread_n src 0 (N.to_nat (u32 (size + 5))) in
    let! dst := deref h1 r in
    let! dst' := bput_bytes dst 0 data in
    Ret (hput h1 r dst', r).

  (** status.cc:26-42.  len1, len2, size and the index expressions 5+len1,
      6+len1 are uint32_t; result + 7 + len1 is pointer arithmetic. *)
  Definition MakeStatus (dbg : bool) (h : sheap) (code : N) (msg msg2 : list N)
    : outcome (sheap * state_ptr) :=
    let! _ := assert_ dbg (negb (code =? kOk)%N) in
    let len1 := u32 (N.of_nat (length msg)) in
    let len2 := u32 (N.of_nat (length msg2)) in
    let size := u32 (len1 + (if (len2 =? 0)%N then 0 else u32 (2 + len2))) in
    let '(h1, r) := new_arr alc h (u32 (size + 5)) in
    let! b := deref h1 r in
    let! b := bput_bytes b 0 (le32 size) in
    let! b := bput b 4 (u8 code) in
    let! b := bput_bytes b 5 (firstn (N.to_nat len1) msg) in
    let! b := (if (len2 =? 0)%N then Ret b else
                 let! b := bput b (N.to_nat (u32 (5 + len1))) 58 (* ':' *) in
                 let! b := bput b (N.to_nat (u32 (6 + len1))) 32 (* ' ' *) in
                 bput_bytes b (N.to_nat (7 + len1)) (firstn (N.to_nat len2) msg2)) in
    Ret (hput h1 r b, Some r).

  (** Status::NotFound(msg, msg2) etc., status.h:32-50 *)
  Definition Factory (dbg : bool) (k : kind) (h : sheap) (msg msg2 : list N) :=
    MakeStatus dbg h (factory_code k) msg msg2.

  (** status.h:98-100 (also the ternary of 107) *)
  Definition CopyPtr (h : sheap) (rhs : state_ptr) : outcome (sheap * state_ptr) :=
    match rhs with
    | None => Ret (h, None)
    | Some a => let! (h1, r) := CopyState h a in Ret (h1, Some r)
    end.
End Model.

(** status.h:53 *)
Definition ok_ (p : state_ptr) : bool := match p with None => true | Some _ => false end.

(** status.h:84-86 *)
Definition code_ (h : sheap) (p : state_ptr) : outcome N :=
  match p with
  | None => Ret kOk
  | Some a => let! b := deref h a in bread b 4
  end.

(** status.h:56, 59, 62, 65, 68 *)
Definition IsCode (c : N) (h : sheap) (p : state_ptr) : outcome bool :=
  let! c' := code_ h p in Ret (c' =? c)%N.
Definition IsNotFound := IsCode kNotFound.
Definition IsCorruption := IsCode kCorruption.
Definition IsIOError := IsCode kIOError.
Definition IsNotSupportedError := IsCode kNotSupported.
Definition IsInvalidArgument := IsCode kInvalidArgument.

(** The predicate named after each kind. *)
Definition Is (k : kind) : sheap -> state_ptr -> outcome bool :=
  match k with
  | NotFound => IsNotFound
  | Corruption => IsCorruption
  | NotSupported => IsNotSupportedError
  | InvalidArgument => IsInvalidArgument
  | IOError => IsIOError
  end.

(** String literals of status.cc:46-68, as ASCII codes. *)
Definition lit_OK : list N := [79; 75]%N.
Definition lit_NotFound : list N := [78;111;116;70;111;117;110;100;58;32]%N.
Definition lit_Corruption : list N := [67;111;114;114;117;112;116;105;111;110;58;32]%N.
Definition lit_NotSupported : list N :=
  [78;111;116;32;105;109;112;108;101;109;101;110;116;101;100;58;32]%N.
Definition lit_InvalidArgument : list N :=
  [73;110;118;97;108;105;100;32;97;114;103;117;109;101;110;116;58;32]%N.
Definition lit_IOError : list N := [73;79;32;101;114;114;111;114;58;32]%N.

(** status.cc:50-74.  The default branch ("Unknown code(%d): ") is not
    modelled: it is [UB] here, and proved unreachable. *)
Definition type_label (code : N) : outcome (list N) :=
  if (code =? kOk)%N then Ret lit_OK
  else if (code =? kNotFound)%N then Ret lit_NotFound
  else if (code =? kCorruption)%N then Ret lit_Corruption
  else if (code =? kNotSupported)%N then Ret lit_NotSupported
  else if (code =? kInvalidArgument)%N then Ret lit_InvalidArgument
  else if (code =? kIOError)%N then Ret lit_IOError
  else UB.

(** status.cc:44-81 *)
Definition ToString (h : sheap) (p : state_ptr) : outcome (list N) :=
  match p with
  | None => Ret lit_OK
  | Some a =>
      let! c := code_ h p in
      let! type := type_label c in
      let! b := deref h a in
      let! sz := bread_n b 0 4 in
      let! m := bread_n b 5 (N.to_nat (unle32 sz)) in
      Ret (type ++ m)
  end.

(** ** Programs over Status variables *)

(** A variable holds its state_; dead variables are absent. *)
Definition vars := heap state_ptr.

Inductive sop :=
| OpOK (v : nat)                                     (* Status v; / Status v = Status::OK(); *)
| OpErr (v : nat) (k : kind) (msg msg2 : list N)     (* Status v = Status::NotFound(msg, msg2); ... *)
| OpCopyCtor (v w : nat)                             (* Status v(w); *)
| OpMoveCtor (v w : nat)                             (* Status v(std::move(w)); *)
| OpCopyAssign (v w : nat)                           (* v = w; *)
| OpMoveAssign (v w : nat)                           (* v = std::move(w); *)
| OpDestroy (v : nat).                               (* v goes out of scope *)

Record sst := { s_heap : sheap; s_vars : vars }.

(** Using a variable that is not live is UB. *)
Definition getv (vs : vars) (v : nat) : outcome state_ptr :=
  match hget vs v with Some p => Ret p | None => UB end.

Section Run.
  Variable alc : allocator.
  Variable dbg : bool.

  Definition sstep (s : sst) (o : sop) : outcome sst :=
    let h := s_heap s in let vs := s_vars s in
    match o with
    | OpOK v => (* status.h:19, 29 *)
        Ret {| s_heap := h; s_vars := hput vs v None |}
    | OpErr v k m m2 => (* status.h:32-50 *)
        let! (h1, p) := Factory alc dbg k h m m2 in
        Ret {| s_heap := h1; s_vars := hput vs v p |}
    | OpCopyCtor v w => (* status.h:98-100 *)
        let! pw := getv vs w in
        let! (h1, p) := CopyPtr alc h pw in
        Ret {| s_heap := h1; s_vars := hput vs v p |}
    | OpMoveCtor v w => (* status.h:25 *)
        let! pw := getv vs w in
        Ret {| s_heap := h; s_vars := hput (hput vs v pw) w None |}
    | OpCopyAssign v w => (* status.h:102-110 *)
        let! pv := getv vs v in
        let! pw := getv vs w in
        match pv, pw with
        | None, None => Ret s
        | Some a, Some b =>
            if a =? b then Ret s else
            let! h1 := delete_arr h pv in
            let! (h2, p) := CopyPtr alc h1 pw in
            Ret {| s_heap := h2; s_vars := hput vs v p |}
        | _, _ =>
            let! h1 := delete_arr h pv in
            let! (h2, p) := CopyPtr alc h1 pw in
            Ret {| s_heap := h2; s_vars := hput vs v p |}
        end
    | OpMoveAssign v w => (* status.h:112-115 *)
        let! pv := getv vs v in
        let! pw := getv vs w in
        Ret {| s_heap := h; s_vars := hput (hput vs v pw) w pv |}
    | OpDestroy v => (* status.h:20 *)
        let! pv := getv vs v in
        let! h1 := delete_arr h pv in
        Ret {| s_heap := h1; s_vars := hdel vs v |}
    end.

  Fixpoint srun (s : sst) (ops : list sop) : outcome sst :=
    match ops with
    | [] => Ret s
    | o :: r => let! s1 := sstep s o in srun s1 r
    end.
End Run.

Definition sinit : sst := {| s_heap := []; s_vars := [] |}.
