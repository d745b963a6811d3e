(** SkipList.v -- model of db/skiplist.h (single-threaded semantics of every
    function; the stores of Insert are recorded one by one in a log, which
    SkipListConc.v replays against concurrent readers).

    Nodes live in a list; a node's address is its index (the arena hands out
    disjoint memory and never frees while the list is in use, see Arena.v, so
    addresses are never reused).  The head is address 0.  A link cell is [None]
    while uninitialised (NewNode does not initialise next_), [Some None] for
    nullptr.  Keys are an arbitrary type with compare_ : K -> K -> int. *)
From Coq Require Import List Arith ZArith NArith Lia Bool.
From Verif Require Import Outcome Random.
Import ListNotations.
Local Open Scope outcome_scope.

(** skiplist.h:99 *)
Definition kMaxHeight : nat := 12.

Section SkipList.
  Context {K : Type}.
  Variable cmp : K -> K -> Z.

  Definition link := option nat.

  (** skiplist.h:143-177; next_ has as many cells as NewNode reserved *)
  Record node := { nkey : K; next_ : list (option link) }.

  (** The memory shared with readers: the nodes and max_height_. *)
  Record mem := { nodes : list node; max_height_ : nat }.

  Definition get_node (m : mem) (x : nat) : outcome node :=
    match nth_error (nodes m) x with Some n => Ret n | None => UB end.

  (** x->Next(n), x->NoBarries_Next(n): skiplist.h:150-155, 164-167.  Reading
      a cell outside the array or an uninitialised one is UB. *)
  Definition Next (m : mem) (x n : nat) : outcome link :=
    let! nd := get_node m x in
    match nth_error (next_ nd) n with
    | Some (Some l) => Ret l
    | _ => UB
    end.

  (** n->key *)
  Definition key_of (m : mem) (x : nat) : outcome K :=
    let! nd := get_node m x in Ret (nkey nd).

  (** Writes to the shared memory. *)
  Inductive store :=
  | SNew (k : K) (height : nat)                 (* NewNode: skiplist.h:180-187 *)
  | SMax (h : nat)                              (* max_height_.store(h, relaxed) *)
  | SLink (release : bool) (x n : nat) (l : link). (* SetNext / NoBarrier_SetNext *)

  Fixpoint set_nth {A} (l : list A) (n : nat) (x : A) : list A :=
    match l, n with
    | [], _ => []
    | _ :: t, O => x :: t
    | y :: t, S n' => y :: set_nth t n' x
    end.

  (** Effect of one store; a link store outside the node's array is UB. *)
  Definition apply_store (m : mem) (s : store) : outcome mem :=
    match s with
    | SNew k h => Ret {| nodes := nodes m ++ [{| nkey := k; next_ := repeat None h |}];
                         max_height_ := max_height_ m |}
    | SMax h => Ret {| nodes := nodes m; max_height_ := h |}
    | SLink _ x n l =>
        let! nd := get_node m x in
        if n <? length (next_ nd) then
          Ret {| nodes := set_nth (nodes m) x
                   {| nkey := nkey nd; next_ := set_nth (next_ nd) n (Some l) |};
                 max_height_ := max_height_ m |}
        else UB
    end.

  (** The list object: shared memory, the writer's private generator, and the
      log of stores made since construction. *)
  Record skiplist := { sl_mem : mem; rnd_ : N; sl_log : list store }.

  Definition do_store (s : skiplist) (w : store) : outcome skiplist :=
    let! m := apply_store (sl_mem s) w in
    Ret {| sl_mem := m; rnd_ := rnd_ s; sl_log := sl_log s ++ [w] |}.

  (** skiplist.h:255-258 *)
  Definition KeyIsAfterNode (m : mem) (key : K) (n : link) : outcome bool :=
    match n with
    | None => Ret false
    | Some a => let! k := key_of m a in Ret (cmp k key <? 0)%Z
    end.

  (** The while loop of FindGreaterOrEqual, skiplist.h:264-284.  [prev] is the
      array prev[0..kMaxHeight); None = entry not written. *)
  Fixpoint fge_loop (fuel : nat) (m : mem) (key : K) (x level : nat) (prev : list (option nat))
    : outcome (link * list (option nat)) :=
    match fuel with
    | O => OutOfFuel
    | S fuel' =>
        let! next := Next m x level in
        let! after := KeyIsAfterNode m key next in
        match next, after with
        | Some y, true => fge_loop fuel' m key y level prev
        | _, _ =>
            let prev := set_nth prev level (Some x) in
            match level with
            | O => Ret (next, prev)
            | S level' => fge_loop fuel' m key x level' prev
            end
        end
    end.

  (** Enough iterations for any search: theorems show it is never exhausted. *)
  Definition search_fuel (m : mem) : nat := length (nodes m) + kMaxHeight.

  Definition no_prev : list (option nat) := repeat None kMaxHeight.

  (** skiplist.h:262-285 *)
  Definition FindGreaterOrEqual (m : mem) (key : K) : outcome (link * list (option nat)) :=
    fge_loop (search_fuel m) m key 0 (max_height_ m - 1) no_prev.

  (** skiplist.h:292-306 *)
  Fixpoint flt_loop (dbg : bool) (fuel : nat) (m : mem) (key : K) (x level : nat) : outcome nat :=
    match fuel with
    | O => OutOfFuel
    | S fuel' =>
        let! kx := key_of m x in
        let! _ := assert_ dbg ((x =? 0) || (cmp kx key <? 0)%Z) in
        let! next := Next m x level in
        let! ge := (match next with
                    | None => Ret true
                    | Some y => let! ky := key_of m y in Ret (0 <=? cmp ky key)%Z
                    end) in
        match next, ge with
        | Some y, false => flt_loop dbg fuel' m key y level
        | _, _ =>
            match level with
            | O => Ret x
            | S level' => flt_loop dbg fuel' m key x level'
            end
        end
    end.

  (** skiplist.h:289-307 *)
  Definition FindLessThan (dbg : bool) (m : mem) (key : K) : outcome nat :=
    flt_loop dbg (search_fuel m) m key 0 (max_height_ m - 1).

  (** skiplist.h:314-329 *)
  Fixpoint flast_loop (fuel : nat) (m : mem) (x level : nat) : outcome nat :=
    match fuel with
    | O => OutOfFuel
    | S fuel' =>
        let! next := Next m x level in
        match next with
        | None =>
            match level with
            | O => Ret x
            | S level' => flast_loop fuel' m x level'
            end
        | Some y => flast_loop fuel' m y level
        end
    end.

  (** skiplist.h:310-330 *)
  Definition FindLast (m : mem) : outcome nat :=
    flast_loop (search_fuel m) m 0 (max_height_ m - 1).

  (** skiplist.h:333-342; [k0] is the key constructed from 0, the seed is
      0xdeadbeef. *)
  Definition SkipList_ctor (k0 : K) : outcome skiplist :=
    let! m := apply_store {| nodes := []; max_height_ := 1 |} (SNew k0 kMaxHeight) in
    let! m := (fix loop (n i : nat) (m : mem) : outcome mem :=
                 match n with
                 | O => Ret m
                 | S n' => let! m := apply_store m (SLink true 0 i None) in loop n' (S i) m
                 end) kMaxHeight 0 m in
    Ret {| sl_mem := m; rnd_ := Random_new 0xdeadbeef; sl_log := [] |}.

  (** skiplist.h:245-248: at most kMaxHeight - 1 draws. *)
  Fixpoint height_loop (n : nat) (rnd : N) (height : nat) : N * nat :=
    match n with
    | O => (rnd, height)
    | S n' =>
        let '(v, rnd') := Random_Next rnd in
        if (v mod 4 =? 0)%N then height_loop n' rnd' (S height) else (rnd', height)
    end.

  (** skiplist.h:242-252.  The assertion of line 249 has its own switch
      [dbg249], so that the others can be studied without it. *)
  Definition RandomHeight (dbg dbg249 : bool) (rnd : N) : outcome (N * nat) :=
    let '(rnd', height) := height_loop (kMaxHeight - 1) rnd 1 in
    let! _ := assert_ dbg249 (Z.of_nat height <? 0)%Z in
    let! _ := assert_ dbg (height <=? kMaxHeight) in
    Ret (rnd', height).

  Definition get_prev (prev : list (option nat)) (i : nat) : outcome nat :=
    match nth_error prev i with Some (Some p) => Ret p | _ => UB end.

  (** skiplist.h:356-358: prev[i] = head_ for i in [from, to) *)
  Fixpoint fill_prev (prev : list (option nat)) (from n : nat) : outcome (list (option nat)) :=
    match n with
    | O => Ret prev
    | S n' => if from <? length prev then fill_prev (set_nth prev from (Some 0)) (S from) n' else UB
    end.

  (** skiplist.h:370-375 *)
  Fixpoint link_loop (n i : nat) (s : skiplist) (x : nat) (prev : list (option nat)) : outcome skiplist :=
    match n with
    | O => Ret s
    | S n' =>
        let! p := get_prev prev i in
        let! nx := Next (sl_mem s) p i in
        let! s := do_store s (SLink false x i nx) in
        let! s := do_store s (SLink true p i (Some x)) in
        link_loop n' (S i) s x prev
    end.

  (** skiplist.h:355-375, after the height has been drawn *)
  Definition insert_linked (s : skiplist) (key : K) (height : nat) (prev : list (option nat))
    : outcome skiplist :=
    let mh := max_height_ (sl_mem s) in
    let! (s, prev) := (if mh <? height then
                         let! prev := fill_prev prev mh (height - mh) in
                         let! s := do_store s (SMax height) in
                         Ret (s, prev)
                       else Ret (s, prev)) in
    let x := length (nodes (sl_mem s)) in
    let! s := do_store s (SNew key height) in
    link_loop height 0 s x prev.

  (** Insert with a given height: skiplist.h:345-376 without RandomHeight. *)
  Definition InsertH (dbg : bool) (s : skiplist) (key : K) (height : nat) : outcome skiplist :=
    let! (x, prev) := FindGreaterOrEqual (sl_mem s) key in
    let! _ := (match x with
               | None => Ret tt
               | Some a => let! ka := key_of (sl_mem s) a in assert_ dbg (negb (cmp key ka =? 0)%Z)
               end) in
    insert_linked s key height prev.

  (** skiplist.h:345-376 *)
  Definition Insert (dbg dbg249 : bool) (s : skiplist) (key : K) : outcome skiplist :=
    let! (x, prev) := FindGreaterOrEqual (sl_mem s) key in
    let! _ := (match x with
               | None => Ret tt
               | Some a => let! ka := key_of (sl_mem s) a in assert_ dbg (negb (cmp key ka =? 0)%Z)
               end) in
    let! (rnd, height) := RandomHeight dbg dbg249 (rnd_ s) in
    insert_linked {| sl_mem := sl_mem s; rnd_ := rnd; sl_log := sl_log s |} key height prev.

  (** skiplist.h:379-382 *)
  Definition Contains (m : mem) (key : K) : outcome bool :=
    let! (x, _) := FindGreaterOrEqual m key in
    match x with
    | None => Ret false
    | Some a => let! ka := key_of m a in Ret (cmp key ka =? 0)%Z
    end.

  (** Iterators: node_ only (list_ is fixed). skiplist.h:190-239 *)
  Definition Iterator := link.
  Definition Iterator_new : Iterator := None.
  Definition Valid (it : Iterator) : bool := match it with None => false | Some _ => true end.

  (** Dereferencing node_ when it is null is UB. *)
  Definition iter_node (dbg : bool) (it : Iterator) : outcome nat :=
    let! _ := assert_ dbg (Valid it) in
    match it with Some a => Ret a | None => UB end.

  (** skiplist.h:201-204 *)
  Definition iter_key (dbg : bool) (m : mem) (it : Iterator) : outcome K :=
    let! a := iter_node dbg it in key_of m a.

  (** skiplist.h:207-210 *)
  Definition iter_Next (dbg : bool) (m : mem) (it : Iterator) : outcome Iterator :=
    let! a := iter_node dbg it in Next m a 0.

  (** skiplist.h:213-221 *)
  Definition iter_Prev (dbg : bool) (m : mem) (it : Iterator) : outcome Iterator :=
    let! a := iter_node dbg it in
    let! k := key_of m a in
    let! x := FindLessThan dbg m k in
    Ret (if x =? 0 then None else Some x).

  (** skiplist.h:224-226 *)
  Definition iter_Seek (m : mem) (target : K) : outcome Iterator :=
    let! (x, _) := FindGreaterOrEqual m target in Ret x.

  (** skiplist.h:229-231 *)
  Definition iter_SeekToFirst (m : mem) : outcome Iterator := Next m 0 0.

  (** skiplist.h:234-239 *)
  Definition iter_SeekToLast (m : mem) : outcome Iterator :=
    let! x := FindLast m in
    Ret (if x =? 0 then None else Some x).

  (** A history of insertions with given heights, and one where Insert draws
      them itself (client code; nothing in /repo). *)
  Fixpoint insert_all (dbg : bool) (s : skiplist) (ks : list (K * nat)) : outcome skiplist :=
    match ks with
    | [] => Ret s
    | (k, h) :: r => let! s := InsertH dbg s k h in insert_all dbg s r
    end.

  Fixpoint insert_real (dbg dbg249 : bool) (s : skiplist) (ks : list K) : outcome skiplist :=
    match ks with
    | [] => Ret s
    | k :: r => let! s := Insert dbg dbg249 s k in insert_real dbg dbg249 s r
    end.
End SkipList.

Arguments node : clear implicits.
Arguments mem : clear implicits.
Arguments store : clear implicits.
Arguments skiplist : clear implicits.
