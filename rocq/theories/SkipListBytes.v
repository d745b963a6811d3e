(** SkipListBytes.v -- db/skiplist.h in the bytes of an arena, with readers in
    other threads.

    SkipListConc.v runs readers against the writer's stores, but to nodes in a list;
    SkipListArena.v has the bytes, but one thread.  Here the thread that owns the
    arena and the list leaves a log of everything it does to memory: calls of the
    arena, stores (the key of a new node, links, and whatever the rest of its program
    writes into memory it got from the same arena) and stores of max_height_.  Readers
    load bytes.  What a reader may see is as in SkipListConc.v: it has a [view] T, the
    first T actions of the log happen before what it does next; an acquire load may
    return what is there after any n actions, T <= n <= now, and raises the view if the
    store it reads from is a release store.

    Races are judged on bytes and over the whole log, the actions to come included: a
    plain load of bytes that any store outside the view touches is [UB]; an atomic load
    is [UB] if a store outside the view touches one of its bytes and is not an atomic
    store to the very same cell.  The memory read, and the bytes' initialisation, must
    be in the view.  LP64, little-endian. *)
From Coq Require Import List Arith ZArith NArith Lia Bool.
From Verif Require Import Outcome Random Arena ArenaSpec SkipList SkipListArena SkipListConc.
Import ListNotations.
Local Open Scope outcome_scope.

(** memory_order of a store *)
Inductive order := Plain | Relaxed | Release.
Inductive bact :=
| BArena (a : arena) (blocks : list (N * N))  (* a call of the arena: its fields, what it got from new[] *)
| BPut (o : order) (a : N) (d : list N)       (* a store *)
| BMax (h : nat).                             (* max_height_.store(h, relaxed): skiplist.h:360-369 *)

(** What threads share: memory, and max_height_ of the list object. *)
Record shared := mk_shared { h_mem : amem; h_max : nat }.
Definition bapply (s : shared) (w : bact) : shared :=
  let m := h_mem s in
  match w with
  | BArena a blocks => mk_shared (mk_amem (m_bytes m) (m_live m ++ blocks) a) (h_max s)
  | BPut _ a d => mk_shared (mk_amem (put_bytes (m_bytes m) a d) (m_live m) (m_arena m)) (h_max s)
  | BMax h => mk_shared m h
  end.

Section Writer.
  Context {K : Type}.
  Variable cmp : K -> K -> Z.
  Variable ksize : N.
  Variable enc : K -> list N.
  Variable dec : list N -> option K.

  (** The blocks a call of the arena added. *)
  Definition new_blocks (m m' : amem) : list (N * N) := skipn (length (m_live m)) (m_live m').

  (** SetNext (release) and NoBarrier_SetNext (relaxed): skiplist.h:157-162, 169-172 *)
  Definition lSetNext (o : order) (m : amem) (p : N) (n : nat) (q : N) : outcome (amem * list bact) :=
    let! m' := aSetNext ksize m p n q in
    Ret (m', [BPut o (p + next_off ksize + 8 * N.of_nat n) (le_bytes 8 q)]).
  (** NewNode: skiplist.h:180-188 *)
  Definition lNewNode (dbg : bool) (m : amem) (key : K) (height : nat) (ans : N) : outcome (amem * N * list bact) :=
    let! (m1, p) := arena_call dbg m (OpAllocateAligned (node_size ksize height)) ans in
    if bad_node p then UB else
    let! m2 := store_at m1 p (enc key) in
    Ret (m2, p, [BArena (m_arena m1) (new_blocks m m1); BPut Plain p (enc key)]).
  (** skiplist.h:370-375 *)
  Fixpoint llink (n i : nat) (m : amem) (x : N) (prev : list (option N)) : outcome (amem * list bact) :=
    match n with
    | O => Ret (m, [])
    | S n' =>
        let! p := (match nth_error prev i with Some (Some p) => Ret p | _ => UB end) in
        let! nx := aNext ksize m p i in
        let! (m, w1) := lSetNext Relaxed m x i nx in
        let! (m, w2) := lSetNext Release m p i x in
        let! (m, w3) := llink n' (S i) m x prev in
        Ret (m, w1 ++ w2 ++ w3)
    end.
  (** skiplist.h:345-376 *)
  Definition lInsert (dbg dbg249 : bool) (fuel : nat) (m : amem) (l : alist) (key : K) (ans : N)
    : outcome (amem * alist * list bact) :=
    let! (x, prev) := aFindGreaterOrEqual cmp ksize dec fuel m l key (Some (repeat None kMaxHeight)) in
    let! _ := (if (x =? 0)%N || negb dbg then Ret tt else let! k := aKey ksize dec m x in assert_ dbg (negb (cmp key k =? 0)%Z)) in
    let! (rnd, height) := RandomHeight dbg dbg249 (a_rnd l) in
    match prev with
    | None => UB
    | Some prev =>
        let! (max, prev, w1) := (if a_max l <? height then
                                   let! prev := afill prev (a_head l) (a_max l) (height - a_max l) in Ret (height, prev, [BMax height])
                                 else Ret (a_max l, prev, [])) in
        let! (m, x, w2) := lNewNode dbg m key height ans in
        let! (m, w3) := llink height 0 m x prev in
        Ret (m, mk_alist (a_head l) max rnd, w1 ++ w2 ++ w3)
    end.
End Writer.

Section Readers.
  Context {K : Type}.
  Variable cmp : K -> K -> Z.
  Variable ksize : N.
  Variable dec : list N -> option K.
  Variable dbg : bool.          (* assertion-enabled build *)
  Variable head : N.            (* head_: skiplist.h:120-122 *)
  Variable s0 : shared.         (* after construction *)
  Variable W : list bact.       (* what the writing thread does from then on *)

  Definition shared_at (n : nat) : shared := fold_left bapply (firstn n W) s0.
  Definition mem_of (n : nat) : amem := h_mem (shared_at n).

  (** Do n bytes at a and k bytes at b overlap? *)
  Definition overlap (a n b k : N) : bool := (N.max a b <? N.min (a + n) (b + k))%N.
  (** No store outside the view touches these bytes. *)
  Definition untouched (view : nat) (a n : N) : bool :=
    forallb (fun w => match w with BPut _ b d => negb (overlap a n b (N.of_nat (length d))) | _ => true end) (skipn view W).
  (** Every store outside the view that touches these eight bytes is an atomic store to them. *)
  Definition only_atomic (view : nat) (a : N) : bool :=
    forallb (fun w => match w with
                      | BPut o b d => negb (overlap a 8 b (N.of_nat (length d))) ||
                                      ((b =? a)%N && (length d =? 8) && match o with Plain => false | _ => true end)
                      | _ => true
                      end) (skipn view W).
  (** The last of the actions [ws] (numbered from [i]) that touches the cell at [a]:
      its number + 1 if it is a release store, otherwise 0. *)
  Fixpoint last_rel (ws : list bact) (i acc : nat) (a : N) : nat :=
    match ws with
    | [] => acc
    | BPut o b d :: r =>
        last_rel r (S i) (if overlap a 8 b (N.of_nat (length d)) then match o with Release => S i | _ => 0 end else acc) a
    | _ :: r => last_rel r (S i) acc a
    end.

  (** A plain load. *)
  Definition plain_load (view : nat) (a n : N) : outcome (list N) :=
    if untouched view a n then load (mem_of view) a n else UB.
  (** An acquire load of a pointer from the state after [n] actions: value, new view. *)
  Definition acquire (view n : nat) (a : N) : outcome (N * nat) :=
    if only_atomic view a then
      let! _ := load (mem_of view) a 8 in
      let! l := load (mem_of n) a 8 in
      Ret (le_value l, Nat.max view (last_rel (firstn n W) 0 0 a))
    else UB.

  (** n->key: skiplist.h:147 *)
  Definition bKey (view : nat) (p : N) : outcome K :=
    if bad_node p then UB else
    let! l := plain_load view p ksize in
    match dec l with Some k => Ret k | None => UB end.
  (** Next: skiplist.h:151-156 *)
  Definition bNext (view n : nat) (p : N) (level : nat) : outcome (N * nat) :=
    if bad_node p then UB else acquire view n (p + next_off ksize + 8 * N.of_nat level).

  (** A reader, as in SkipListConc.v, with addresses for nodes and 0 for nullptr. *)
  Inductive bpc :=
  | QIdle
  | QHeight
  | QFge (key : K) (x : N) (level : nat)
  | QFlt (key : K) (x : N) (level : nat)
  | QFlast (x : N) (level : nat)
  | QNext0 (x : N)
  | QDone.
  Record breader := {
    b_view : nat;
    b_pc : bpc;
    b_op : op K;
    b_it : N;                (* the iterator's node_ *)
    b_res : bool;            (* result of the last Contains *)
    (* bookkeeping for the theorems *)
    b_from : N;              (* b_it when the operation started *)
    b_start : nat;           (* view when it started *)
    b_end : nat;             (* number of actions performed when it returned *)
    b_steps : nat            (* loads of links and of max_height_ performed by it *)
  }.
  Definition new_breader : breader :=
    {| b_view := 0; b_pc := QIdle; b_op := OFirst; b_it := 0; b_res := false;
       b_from := 0; b_start := 0; b_end := 0; b_steps := 0 |}.

  (** skiplist.h:207-239, 379-382 up to the first load *)
  Definition bstart (r : breader) (o : op K) : outcome breader :=
    let mk p := {| b_view := b_view r; b_pc := p; b_op := o; b_it := b_it r; b_res := b_res r;
                   b_from := b_it r; b_start := b_view r; b_end := 0; b_steps := 0 |} in
    match o with
    | OContains _ | OSeek _ | OLast => Ret (mk QHeight)
    | OFirst => Ret (mk (QNext0 head))
    | ONext => let! _ := assert_ dbg (aValid (b_it r)) in Ret (mk (QNext0 (b_it r)))
    | OPrev => let! _ := assert_ dbg (aValid (b_it r)) in Ret (mk QHeight)
    end.
  Definition bgoto (r : breader) (view : nat) (p : bpc) : breader :=
    {| b_view := view; b_pc := p; b_op := b_op r; b_it := b_it r; b_res := b_res r;
       b_from := b_from r; b_start := b_start r; b_end := b_end r; b_steps := S (b_steps r) |}.
  Definition bfinish (r : breader) (view now : nat) (it : N) (b : bool) : breader :=
    {| b_view := view; b_pc := QDone; b_op := b_op r; b_it := it; b_res := b;
       b_from := b_from r; b_start := b_start r; b_end := now; b_steps := S (b_steps r) |}.

  (** skiplist.h:255-258 *)
  Definition bAfter (view : nat) (key : K) (n : N) : outcome bool :=
    if (n =? 0)%N then Ret false else let! k := bKey view n in Ret (cmp k key <? 0)%Z.
  (** FindGreaterOrEqual has found [v]: rest of Contains (skiplist.h:380-381) or Seek (225) *)
  Definition bfound (r : breader) (view now : nat) (v : N) : outcome breader :=
    match b_op r with
    | OContains key =>
        if (v =? 0)%N then Ret (bfinish r view now (b_it r) false)
        else let! k := bKey view v in Ret (bfinish r view now (b_it r) (cmp key k =? 0)%Z)
    | _ => Ret (bfinish r view now v (b_res r))
    end.
  (** skiplist.h:218-220, 236-238 *)
  Definition not_headp (x : N) : N := if (x =? head)%N then 0%N else x.

  (** One atomic load and the local computation that follows it. *)
  Definition brstep (now n : nat) (r : breader) : outcome breader :=
    match b_pc r with
    | QIdle | QDone => UB
    | QHeight =>                            (* skiplist.h:101-103, 264-265, 290-291, 312-313 *)
        let level := h_max (shared_at n) - 1 in
        match b_op r with
        | OContains k | OSeek k => Ret (bgoto r (b_view r) (QFge k head level))
        | OLast => Ret (bgoto r (b_view r) (QFlast head level))
        | OPrev => let! k := bKey (b_view r) (b_it r) in Ret (bgoto r (b_view r) (QFlt k head level))
        | OFirst | ONext => UB
        end
    | QFge key x level =>                   (* skiplist.h:266-284 *)
        let! (v, view) := bNext (b_view r) n x level in
        let! after := bAfter view key v in
        if after then Ret (bgoto r view (QFge key v level))
        else match level with
             | O => bfound r view now v
             | S level' => Ret (bgoto r view (QFge key x level'))
             end
    | QFlt key x level =>                   (* skiplist.h:292-306 *)
        let! _ := (if (x =? head)%N then Ret tt
                   else if dbg then let! kx := bKey (b_view r) x in assert_ dbg (cmp kx key <? 0)%Z else Ret tt) in
        let! (v, view) := bNext (b_view r) n x level in
        let! ge := (if (v =? 0)%N then Ret true else let! k := bKey view v in Ret (0 <=? cmp k key)%Z) in
        if ge then
          match level with
          | O => Ret (bfinish r view now (not_headp x) (b_res r))
          | S level' => Ret (bgoto r view (QFlt key x level'))
          end
        else Ret (bgoto r view (QFlt key v level))
    | QFlast x level =>                     (* skiplist.h:314-329 *)
        let! (v, view) := bNext (b_view r) n x level in
        if (v =? 0)%N then
          match level with
          | O => Ret (bfinish r view now (not_headp x) (b_res r))
          | S level' => Ret (bgoto r view (QFlast x level'))
          end
        else Ret (bgoto r view (QFlast v level))
    | QNext0 x =>                           (* skiplist.h:209, 230 *)
        let! (v, view) := bNext (b_view r) n x 0 in
        Ret (bfinish r view now v (b_res r))
    end.

  (** ** The system *)
  Record bconfig := { k_now : nat; k_readers : list breader }.
  Definition b_in_op (r : breader) : bool := match b_pc r with QIdle | QDone => false | _ => true end.
  Definition b_may_read (now n : nat) (r : breader) : Prop :=
    n <= now /\ (b_pc r <> QHeight -> b_view r <= n).
  Definition b_set_view (r : breader) (v : nat) : breader :=
    {| b_view := v; b_pc := b_pc r; b_op := b_op r; b_it := b_it r; b_res := b_res r;
       b_from := b_from r; b_start := b_start r; b_end := b_end r; b_steps := b_steps r |}.
  Definition b_may_start (r : breader) (o : op K) : Prop :=
    b_in_op r = false /\ match o with ONext | OPrev => aValid (b_it r) = true | _ => True end.

  Inductive bstep : bconfig -> bconfig -> Prop :=
  | bs_write now rs : now < length W ->
      bstep {| k_now := now; k_readers := rs |} {| k_now := S now; k_readers := rs |}
  | bs_sync now rs i r v :       (* some other synchronisation with the writing thread *)
      nth_error rs i = Some r -> b_view r <= v <= now ->
      bstep {| k_now := now; k_readers := rs |} {| k_now := now; k_readers := set_nth rs i (b_set_view r v) |}
  | bs_start now rs i r o r' :
      nth_error rs i = Some r -> b_may_start r o -> bstart r o = Ret r' ->
      bstep {| k_now := now; k_readers := rs |} {| k_now := now; k_readers := set_nth rs i r' |}
  | bs_read now rs i r n r' :
      nth_error rs i = Some r -> b_in_op r = true -> b_may_read now n r -> brstep now n r = Ret r' ->
      bstep {| k_now := now; k_readers := rs |} {| k_now := now; k_readers := set_nth rs i r' |}.
  Inductive breachable (readers : nat) : bconfig -> Prop :=
  | breach_init : breachable readers {| k_now := 0; k_readers := repeat new_breader readers |}
  | breach_step c c' : breachable readers c -> bstep c c' -> breachable readers c'.
End Readers.
Arguments bpc : clear implicits.
Arguments breader : clear implicits.
Arguments bconfig : clear implicits.
