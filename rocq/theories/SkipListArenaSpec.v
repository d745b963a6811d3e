(** SkipListArenaSpec.v -- what C99 says: a program that owns an arena, gives it to
    one skip list and uses it itself as well. *)
From Coq Require Import List ZArith NArith Lia Bool.
From Verif Require Import Outcome Arena ArenaSpec SkipList SkipListSpec SkipListArena.
Import ListNotations.

(** Keys are trivially copyable objects of [ksize] bytes. *)
Record key_codec {K} (ksize : N) (enc : K -> list N) (dec : list N -> option K) : Prop := {
  kc_size : forall k, N.of_nat (length (enc k)) = ksize;
  kc_bound : (0 < ksize < 2 ^ 32)%N;
  kc_dec : forall k, dec (enc k) = Some k
}.

(** If the arena asks new[] for memory to serve this request, [ans] is an answer
    new[] may give. *)
Definition new_ok (m : amem) (o : aop) (ans : N) : Prop :=
  forall a p ev, astep false (m_arena m) o ans = Ret (a, p, ev) -> answers_ok (m_live m) ev.

(** The bytes of a region are the same in two memories. *)
Definition same_bytes (m m' : amem) (r : N * N) : Prop :=
  forall x, covers r x -> m_bytes m x = m_bytes m' x.

(** Stepping with an iterator visits exactly these keys and then it is invalid. *)
Inductive walks {K} (key : N -> outcome K) (step : N -> outcome N) : N -> list K -> Prop :=
| walks_end it : aValid it = false -> walks key step it []
| walks_step it k it' ks :
    aValid it = true -> key it = Ret k -> step it = Ret it' ->
    walks key step it' ks -> walks key step it (k :: ks).

Section Spec.
  Context {K : Type} (cmp : K -> K -> Z) (ksize : N) (enc : K -> list N) (dec : list N -> option K).
  Variables (dbg : bool) (k0 : K).

  (** Memory, the list once constructed, what the rest of the program got from
      the arena, the keys inserted (latest first). *)
  Record world := mk_world { w_mem : amem; w_list : option alist; w_others : list (N * N); w_keys : list K }.
  Definition world0 : world := mk_world amem0 None [] [].

  (** The node the next Insert asks for. *)
  Definition insert_new_ok (m : amem) (l : alist) (ans : N) : Prop :=
    forall r h, RandomHeight false false (a_rnd l) = Ret (r, h) -> new_ok m (OpAllocateAligned (node_size ksize h)) ans.

  Inductive does : world -> world -> Prop :=
  | does_alloc m l rs ks o ans m' p :       (* the program allocates *)
      legal o -> new_ok m o ans -> arena_call dbg m o ans = Ret (m', p) ->
      does (mk_world m l rs ks) (mk_world m' l (rs ++ [(p, op_bytes o)]) ks)
  | does_write m l rs ks r a d m' :         (* and writes to what it was given *)
      In r rs -> (fst r <= a)%N -> (a + N.of_nat (length d) <= fst r + snd r)%N -> store_at m a d = Ret m' ->
      does (mk_world m l rs ks) (mk_world m' l rs ks)
  | does_construct m rs ans m' l' :
      new_ok m (OpAllocateAligned (node_size ksize 12)) ans -> aSkipList ksize enc dbg m k0 ans = Ret (m', l') ->
      does (mk_world m None rs []) (mk_world m' (Some l') rs [])
  | does_insert fuel m l rs ks k ans m' l' :
      ~ member cmp k ks -> insert_new_ok m l ans ->
      aInsert cmp ksize enc dec dbg false fuel m l k ans = Ret (m', l') ->
      does (mk_world m (Some l) rs ks) (mk_world m' (Some l') rs (k :: ks)).

  Inductive does_many : world -> world -> Prop :=
  | many_nil w : does_many w w
  | many_snoc w w1 w2 : does_many w w1 -> does w1 w2 -> does_many w w2.
  Definition reachable (w : world) : Prop := does_many world0 w.

  (** Iterators a client can hold in a memory: any sequence of positioning calls. *)
  Inductive placed_at (fuel : nat) (m : amem) (l : alist) : N -> Prop :=
  | at_first it : ait_SeekToFirst ksize m l = Ret it -> placed_at fuel m l it
  | at_last it : ait_SeekToLast ksize fuel m l = Ret it -> placed_at fuel m l it
  | at_seek t it : ait_Seek cmp ksize dec fuel m l t = Ret it -> placed_at fuel m l it
  | at_next it it' : placed_at fuel m l it -> aValid it = true -> ait_Next ksize dbg m it = Ret it' -> placed_at fuel m l it'
  | at_prev it it' : placed_at fuel m l it -> aValid it = true -> ait_Prev cmp ksize dec dbg fuel m l it = Ret it' -> placed_at fuel m l it'.
End Spec.
