(** SkipListOom.v -- SkipList::Insert when memory runs out.

    SkipList.v lets NewNode succeed.  Here the arena's new[] may throw std::bad_alloc
    (ArenaOom.v), which Insert does not catch: it has then searched, drawn a height and
    possibly raised max_height_, but linked nothing. *)
From Coq Require Import List Arith ZArith NArith Lia Bool.
From Verif Require Import Outcome Random SkipList.
Import ListNotations.
Local Open Scope outcome_scope.

Section Oom.
  Context {K : Type}.
  Variable cmp : K -> K -> Z.

  (** skiplist.h:355-366 up to NewNode, which throws *)
  Definition insert_thrown (s : skiplist K) (height : nat) (prev : list (option nat)) : outcome (skiplist K) :=
    let mh := max_height_ (sl_mem s) in
    if mh <? height then
      let! _ := fill_prev prev mh (height - mh) in
      do_store s (SMax height)
    else Ret s.

  (** Insert of a key with a given height, skiplist.h:345-376 without RandomHeight;
      [oom]: NewNode throws. *)
  Definition oInsertH (dbg : bool) (s : skiplist K) (key : K) (height : nat) (oom : bool) : outcome (skiplist K) :=
    if oom then
      let! (x, prev) := FindGreaterOrEqual cmp (sl_mem s) key in
      let! _ := (match x with
                 | None => Ret tt
                 | Some a => let! ka := key_of (sl_mem s) a in assert_ dbg (negb (cmp key ka =? 0)%Z)
                 end) in
      insert_thrown s height prev
    else InsertH cmp dbg s key height.

  (** skiplist.h:345-376: rnd_ has advanced when NewNode throws *)
  Definition oInsert (dbg dbg249 : bool) (s : skiplist K) (key : K) (oom : bool) : outcome (skiplist K) :=
    if oom then
      let! (x, prev) := FindGreaterOrEqual cmp (sl_mem s) key in
      let! _ := (match x with
                 | None => Ret tt
                 | Some a => let! ka := key_of (sl_mem s) a in assert_ dbg (negb (cmp key ka =? 0)%Z)
                 end) in
      let! (rnd, height) := RandomHeight dbg dbg249 (rnd_ s) in
      insert_thrown {| sl_mem := sl_mem s; rnd_ := rnd; sl_log := sl_log s |} height prev
    else Insert cmp dbg dbg249 s key.

  (** Histories: with given heights, and with the heights Insert draws. *)
  Fixpoint oinsert_all (dbg : bool) (s : skiplist K) (hist : list (K * nat * bool)) : outcome (skiplist K) :=
    match hist with
    | [] => Ret s
    | (k, h, oom) :: r => let! s := oInsertH dbg s k h oom in oinsert_all dbg s r
    end.
  Fixpoint oinsert_real (dbg dbg249 : bool) (s : skiplist K) (hist : list (K * bool)) : outcome (skiplist K) :=
    match hist with
    | [] => Ret s
    | (k, oom) :: r => let! s := oInsert dbg dbg249 s k oom in oinsert_real dbg dbg249 s r
    end.

  (** ** What the statements speak of *)

  (** The keys whose insertion returned. *)
  Definition stored {A} (key : A -> K) (threw : A -> bool) (hist : list A) : list K :=
    map key (filter (fun a => negb (threw a)) hist).

  (** The precondition of Insert along the history: nothing equal to the key is in the
      list -- a key whose insertion threw may be tried again. *)
  Fixpoint insertable {A} (key : A -> K) (threw : A -> bool) (present : list K) (hist : list A) : Prop :=
    match hist with
    | [] => True
    | a :: r => (forall k, In k present -> cmp (key a) k <> 0%Z) /\
                insertable key threw (if threw a then present else key a :: present) r
    end.
End Oom.
