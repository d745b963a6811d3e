(** SkipListArena.v -- db/skiplist.h once more, now in the bytes of an arena.

    SkipList.v keeps the nodes in a list and takes the index of a node for its
    address.  Here nodes lie where Arena::AllocateAligned puts them, pointers are
    64-bit addresses stored in eight bytes, and the arena is shared with other
    users, who may allocate from it and write to what they were given.  An access
    outside the memory obtained with new[], through nullptr or a misaligned pointer,
    or to a byte that was never written is [UB].  LP64, little-endian; alignof(Key) divides 8. *)
From Coq Require Import List Arith ZArith NArith Lia Bool.
From Verif Require Import Outcome Random Arena ArenaSpec SkipList SkipListSpec.
Import ListNotations.
Local Open Scope outcome_scope.

(** The eight bytes of a pointer. *)
Fixpoint le_bytes (n : nat) (x : N) : list N :=
  match n with O => [] | S n' => (x mod 256)%N :: le_bytes n' (x / 256)%N end.
Fixpoint le_value (l : list N) : N := match l with [] => 0 | b :: l' => (b + 256 * le_value l')%N end.

(** The process as far as the list is concerned: the bytes ([None]: never
    written), the blocks obtained with new[], the arena object. *)
Record amem := mk_amem { m_bytes : N -> option N; m_live : list (N * N); m_arena : arena }.
Definition amem0 : amem := mk_amem (fun _ => None) [] arena0.
Definition in_block (m : amem) (a n : N) : bool :=
  existsb (fun b => (fst b <=? a)%N && (a + n <=? fst b + snd b)%N) (m_live m).
Fixpoint bytes_at (m : amem) (a : N) (n : nat) : outcome (list N) :=
  match n with
  | O => Ret []
  | S n' =>
      match m_bytes m a with
      | Some b => let! r := bytes_at m (a + 1) n' in Ret (b :: r)
      | None => UB
      end
  end.
Definition load (m : amem) (a n : N) : outcome (list N) :=
  if in_block m a n then bytes_at m a (N.to_nat n) else UB.
Definition put_bytes (f : N -> option N) (a : N) (d : list N) : N -> option N :=
  fun x => if (a <=? x)%N && (x <? a + N.of_nat (length d))%N then nth_error d (N.to_nat (x - a)) else f x.
Definition store_at (m : amem) (a : N) (d : list N) : outcome amem :=
  if in_block m a (N.of_nat (length d)) then Ret (mk_amem (put_bytes (m_bytes m) a d) (m_live m) (m_arena m)) else UB.

(** A call of the arena (Arena.v); [ans] is what new[] answers if it is asked. *)
Definition arena_call (dbg : bool) (m : amem) (o : aop) (ans : N) : outcome (amem * N) :=
  let! (a, p, ev) := astep dbg (m_arena m) o ans in
  Ret (mk_amem (m_bytes m) (m_live m ++ flat_map (fun e => match e with New n b => [(b, n)] | Del _ => [] end) ev) a, p).

Section SkipListArena.
  Context {K : Type}.
  Variable cmp : K -> K -> Z.
  (** sizeof(Key) and the bytes of a key *)
  Variable ksize : N.
  Variable enc : K -> list N.
  Variable dec : list N -> option K.

  (** offsetof(Node, next_) and the size NewNode asks for: skiplist.h:143-177, 183-184 *)
  Definition next_off : N := ((ksize + 7) / 8 * 8)%N.
  Definition node_size (height : nat) : N := (next_off + 8 + 8 * N.of_nat (height - 1))%N.

  (** A pointer through which a Node cannot be accessed: null or misaligned. *)
  Definition bad_node (p : N) : bool := (p =? 0)%N || negb (p mod 8 =? 0)%N.

  (** n->key: skiplist.h:147 *)
  Definition aKey (m : amem) (p : N) : outcome K :=
    if bad_node p then UB else
    let! l := load m p ksize in
    match dec l with Some k => Ret k | None => UB end.
  (** Next, NoBarries_Next: skiplist.h:151-156, 165-168 *)
  Definition aNext (m : amem) (p : N) (n : nat) : outcome N :=
    if bad_node p then UB else
    let! l := load m (p + next_off + 8 * N.of_nat n) 8 in Ret (le_value l).
  (** SetNext, NoBarrier_SetNext: skiplist.h:157-162, 169-172 *)
  Definition aSetNext (m : amem) (p : N) (n : nat) (q : N) : outcome amem :=
    if bad_node p then UB else store_at m (p + next_off + 8 * N.of_nat n) (le_bytes 8 q).
  (** skiplist.h:180-188; the links are left as they are *)
  Definition aNewNode (dbg : bool) (m : amem) (key : K) (height : nat) (ans : N) : outcome (amem * N) :=
    let! (m, p) := arena_call dbg m (OpAllocateAligned (node_size height)) ans in
    if bad_node p then UB else
    let! m := store_at m p (enc key) in
    Ret (m, p).

  (** skiplist.h:120-132 *)
  Record alist := mk_alist { a_head : N; a_max : nat; a_rnd : N }.

  (** skiplist.h:255-258 *)
  Definition aKeyIsAfterNode (m : amem) (key : K) (n : N) : outcome bool :=
    if (n =? 0)%N then Ret false else let! k := aKey m n in Ret (cmp k key <? 0)%Z.

  (** skiplist.h:262-285.  [prev]: the caller's array, [None] for nullptr. *)
  Fixpoint afge (fuel : nat) (m : amem) (key : K) (x : N) (level : nat) (prev : option (list (option N)))
    : outcome (N * option (list (option N))) :=
    match fuel with
    | O => OutOfFuel
    | S fuel' =>
        let! next := aNext m x level in
        let! after := aKeyIsAfterNode m key next in
        if after then afge fuel' m key next level prev
        else
          let prev := option_map (fun l => set_nth l level (Some x)) prev in
          match level with
          | O => Ret (next, prev)
          | S level' => afge fuel' m key x level' prev
          end
    end.
  Definition aFindGreaterOrEqual (fuel : nat) (m : amem) (l : alist) (key : K) (prev : option (list (option N))) :=
    afge fuel m key (a_head l) (a_max l - 1) prev.

  (** skiplist.h:287-307 *)
  Fixpoint aflt (dbg : bool) (fuel : nat) (m : amem) (head : N) (key : K) (x : N) (level : nat) : outcome N :=
    match fuel with
    | O => OutOfFuel
    | S fuel' =>
        let! _ := (if (x =? head)%N then Ret tt else if dbg then let! kx := aKey m x in assert_ dbg (cmp kx key <? 0)%Z else Ret tt) in
        let! next := aNext m x level in
        let! ge := (if (next =? 0)%N then Ret true else let! k := aKey m next in Ret (0 <=? cmp k key)%Z) in
        if ge then
          match level with
          | O => Ret x
          | S level' => aflt dbg fuel' m head key x level'
          end
        else aflt dbg fuel' m head key next level
    end.
  Definition aFindLessThan (dbg : bool) (fuel : nat) (m : amem) (l : alist) (key : K) : outcome N :=
    aflt dbg fuel m (a_head l) key (a_head l) (a_max l - 1).

  (** skiplist.h:309-330 *)
  Fixpoint aflast (fuel : nat) (m : amem) (x : N) (level : nat) : outcome N :=
    match fuel with
    | O => OutOfFuel
    | S fuel' =>
        let! next := aNext m x level in
        if (next =? 0)%N then
          match level with
          | O => Ret x
          | S level' => aflast fuel' m x level'
          end
        else aflast fuel' m next level
    end.
  Definition aFindLast (fuel : nat) (m : amem) (l : alist) : outcome N := aflast fuel m (a_head l) (a_max l - 1).

  (** skiplist.h:332-342; [k0] is the key made from 0 *)
  Fixpoint aclear (m : amem) (head : N) (n i : nat) : outcome amem :=
    match n with
    | O => Ret m
    | S n' => let! m := aSetNext m head i 0 in aclear m head n' (S i)
    end.
  Definition aSkipList (dbg : bool) (m : amem) (k0 : K) (ans : N) : outcome (amem * alist) :=
    let! (m, head) := aNewNode dbg m k0 kMaxHeight ans in
    let! m := aclear m head kMaxHeight 0 in
    Ret (m, mk_alist head 1 (Random_new 0xdeadbeef)).

  (** prev[i] = head_: skiplist.h:356-358 *)
  Fixpoint afill (prev : list (option N)) (head : N) (from n : nat) : outcome (list (option N)) :=
    match n with
    | O => Ret prev
    | S n' => if from <? length prev then afill (set_nth prev from (Some head)) head (S from) n' else UB
    end.
  (** skiplist.h:370-375 *)
  Fixpoint alink (n i : nat) (m : amem) (x : N) (prev : list (option N)) : outcome amem :=
    match n with
    | O => Ret m
    | S n' =>
        let! p := (match nth_error prev i with Some (Some p) => Ret p | _ => UB end) in
        let! nx := aNext m p i in
        let! m := aSetNext m x i nx in
        let! m := aSetNext m p i x in
        alink n' (S i) m x prev
    end.
  (** skiplist.h:345-376 *)
  Definition aInsert (dbg dbg249 : bool) (fuel : nat) (m : amem) (l : alist) (key : K) (ans : N) : outcome (amem * alist) :=
    let! (x, prev) := aFindGreaterOrEqual fuel m l key (Some (repeat None kMaxHeight)) in
    let! _ := (if (x =? 0)%N || negb dbg then Ret tt else let! k := aKey m x in assert_ dbg (negb (cmp key k =? 0)%Z)) in
    let! (rnd, height) := RandomHeight dbg dbg249 (a_rnd l) in
    match prev with
    | None => UB
    | Some prev =>
        let! (max, prev) := (if a_max l <? height then
                               let! prev := afill prev (a_head l) (a_max l) (height - a_max l) in Ret (height, prev)
                             else Ret (a_max l, prev)) in
        let! (m, x) := aNewNode dbg m key height ans in
        let! m := alink height 0 m x prev in
        Ret (m, mk_alist (a_head l) max rnd)
    end.

  (** skiplist.h:378-382 *)
  Definition aContains (fuel : nat) (m : amem) (l : alist) (key : K) : outcome bool :=
    let! (x, _) := aFindGreaterOrEqual fuel m l key None in
    if (x =? 0)%N then Ret false else let! k := aKey m x in Ret (cmp key k =? 0)%Z.

  (** Iterators (node_): skiplist.h:190-239 *)
  Definition aValid (it : N) : bool := negb (it =? 0)%N.
  Definition ait_key (dbg : bool) (m : amem) (it : N) : outcome K :=
    let! _ := assert_ dbg (aValid it) in aKey m it.
  Definition ait_Next (dbg : bool) (m : amem) (it : N) : outcome N :=
    let! _ := assert_ dbg (aValid it) in aNext m it 0.
  Definition ait_Prev (dbg : bool) (fuel : nat) (m : amem) (l : alist) (it : N) : outcome N :=
    let! _ := assert_ dbg (aValid it) in
    let! k := aKey m it in
    let! x := aFindLessThan dbg fuel m l k in
    Ret (if (x =? a_head l)%N then 0%N else x).
  Definition ait_Seek (fuel : nat) (m : amem) (l : alist) (target : K) : outcome N :=
    let! (x, _) := aFindGreaterOrEqual fuel m l target None in Ret x.
  Definition ait_SeekToFirst (m : amem) (l : alist) : outcome N := aNext m (a_head l) 0.
  Definition ait_SeekToLast (fuel : nat) (m : amem) (l : alist) : outcome N :=
    let! x := aFindLast fuel m l in Ret (if (x =? a_head l)%N then 0%N else x).
End SkipListArena.
