(** SkipListBytesSpec.v -- what C105 says: readers in other threads of a skip list
    whose owner goes on inserting and using the arena for other things. *)
From Coq Require Import List Arith ZArith NArith Lia Bool.
From Verif Require Import Outcome Arena ArenaSpec SkipList SkipListSpec SkipListArena SkipListArenaSpec SkipListConc SkipListBytes.
Import ListNotations.

Section Spec.
  Context {K : Type} (cmp : K -> K -> Z) (ksize : N) (enc : K -> list N) (dec : list N -> option K).
  Variables (dbg : bool) (k0 : K).

  (** The list [l] has just been constructed in [w0]. *)
  Definition constructed (w0 : @world K) (l : alist) : Prop :=
    exists w, SkipListArenaSpec.reachable cmp ksize enc dec dbg k0 w /\ w_list w = None /\
      does cmp ksize enc dec dbg k0 w w0 /\ w_list w0 = Some l.

  (** What the owning thread does from [w0] on: the actions it has performed, and the
      insertions, each with the number of actions performed before and after it. *)
  Inductive owner (w0 : @world K) : @world K -> list bact -> list (K * nat * nat) -> Prop :=
  | owner_start : owner w0 w0 [] []
  | owner_alloc m l rs ks W ins o ans m' p :
      owner w0 (mk_world m l rs ks) W ins ->
      legal o -> new_ok m o ans -> arena_call dbg m o ans = Ret (m', p) ->
      owner w0 (mk_world m' l (rs ++ [(p, op_bytes o)]) ks) (W ++ [BArena (m_arena m') (new_blocks m m')]) ins
  | owner_write m l rs ks W ins r ord a d m' :
      owner w0 (mk_world m l rs ks) W ins ->
      In r rs -> (fst r <= a)%N -> (a + N.of_nat (length d) <= fst r + snd r)%N -> store_at m a d = Ret m' ->
      owner w0 (mk_world m' l rs ks) (W ++ [BPut ord a d]) ins
  | owner_insert fuel m l rs ks W ins k ans m' l' W1 :
      owner w0 (mk_world m (Some l) rs ks) W ins ->
      ~ member cmp k ks -> insert_new_ok ksize m l ans ->
      lInsert cmp ksize enc dec dbg false fuel m l k ans = Ret (m', l', W1) ->
      owner w0 (mk_world m' (Some l') rs (k :: ks)) (W ++ W1) (ins ++ [(k, length W, length W + length W1)]).

  (** Insert(k) had returned within the first [t] actions; had been called within them. *)
  Definition inserted (ins : list (K * nat * nat)) (t : nat) (k : K) : Prop := exists s e, In (k, s, e) ins /\ e <= t.
  Definition begun (ins : list (K * nat * nat)) (t : nat) (k : K) : Prop := exists s e, In (k, s, e) ins /\ s < t.

  (** What [key], the function Iterator::key of the reader, gives at a position; None
      for an invalid one. *)
  Definition key_in (key : N -> outcome K) (it : N) (ko : option K) : Prop :=
    if aValid it then exists k, key it = Ret k /\ ko = Some k else ko = None.

  (** The result of an operation, given the keys that were certainly [there] when it
      started and those that were [possibly] there when it returned.  [kf], [kr]: the
      keys at the iterator before and after, [b]: the answer of Contains. *)
  Definition answer_ok (there possibly : K -> Prop) (o : op K) (kf kr : option K) (b : bool) : Prop :=
    match o with OContains _ => True | _ => forall k, kr = Some k -> possibly k end /\
    match o with
    | OContains k =>
        ((exists k', there k' /\ cmp k k' = 0%Z) -> b = true) /\
        ((forall k', possibly k' -> cmp k k' <> 0%Z) -> b = false)
    | OSeek t =>
        match kr with
        | Some k => (0 <= cmp k t)%Z /\ forall k', there k' -> ~ ((0 <= cmp k' t)%Z /\ (cmp k' k < 0)%Z)
        | None => forall k', there k' -> (cmp k' t < 0)%Z
        end
    | OFirst =>
        match kr with
        | Some k => forall k', there k' -> ~ (cmp k' k < 0)%Z
        | None => forall k', ~ there k'
        end
    | OLast =>
        match kr with
        | Some k => forall k', there k' -> ~ (cmp k k' < 0)%Z
        | None => forall k', ~ there k'
        end
    | ONext =>
        exists f, kf = Some f /\
        match kr with
        | Some k => (cmp f k < 0)%Z /\ forall k', there k' -> ~ ((cmp f k' < 0)%Z /\ (cmp k' k < 0)%Z)
        | None => forall k', there k' -> ~ (cmp f k' < 0)%Z
        end
    | OPrev =>
        exists f, kf = Some f /\
        match kr with
        | Some k => (cmp k f < 0)%Z /\ forall k', there k' -> ~ ((cmp k k' < 0)%Z /\ (cmp k' f < 0)%Z)
        | None => forall k', there k' -> ~ (cmp k' f < 0)%Z
        end
    end.
End Spec.
