(** CacheSpec.v -- what a user of the cache sees: histories of calls.

    Nothing here mentions lists, tables, reference counts or any other part of
    the implementation.  A history is the list of finished calls with their
    results and with the deleter calls made during each of them, newest first;
    the number of an event is its position counted from the oldest (0). *)
From Coq Require Import List Arith NArith Bool.
From Verif Require Import Outcome Cache.
Import ListNotations.

(** The calls of include/cache.h; a handle is an address, 0 is nullptr.  The last
    two are not calls a user makes: they are the sixteen locked steps, one per
    shard, of which Prune and TotalCharge consist, and are there to describe what
    happens when threads interleave (CacheConc.v). *)
Inductive call :=
| CInsert (key : bytes) (value charge deleter : N)
| CLookup (key : bytes)
| CRelease (handle : nat)
| CValue (handle : nat)
| CErase (key : bytes)
| CPrune
| CTotalCharge
| CNewId
| CPruneShard (i : nat)
| CShardCharge (i : nat).

Inductive result := RHandle (h : nat) | RNum (n : N) | RNone.

(** A deleter call is (entry's address, deleter, key, value), see Cache.dcall. *)
Record event := mk_event { ev_call : call; ev_res : result; ev_del : list dcall }.
Definition history := list event.

(** How many times the handle [h] is currently held: it was returned by Insert
    or Lookup that many times more than it was released. *)
Fixpoint held (H : history) (h : nat) : nat :=
  match H with
  | [] => 0
  | ev :: H' =>
      match ev_call ev, ev_res ev with
      | CInsert _ _ _ _, RHandle p | CLookup _, RHandle p =>
          if negb (p =? 0) && (p =? h) then S (held H' h) else held H' h
      | CRelease p, _ => if p =? h then held H' h - 1 else held H' h
      | _, _ => held H' h
      end
  end.

(** The Insert a handle stands for: the last one that returned it. *)
Fixpoint owner (H : history) (h : nat) : option nat :=
  match H with
  | [] => None
  | ev :: H' =>
      match ev_call ev, ev_res ev with
      | CInsert _ _ _ _, RHandle p => if p =? h then Some (length H') else owner H' h
      | _, _ => owner H' h
      end
  end.

(** The arguments (key, value, charge, deleter) of event [i], if it is an Insert. *)
Definition insert_at (H : history) (i : nat) : option (bytes * N * N * N) :=
  match nth_error (rev H) i with
  | Some ev => match ev_call ev with CInsert k v c d => Some (k, v, c, d) | _ => None end
  | None => None
  end.

(** How often a deleter was called for the entry made by Insert number [i]. *)
Definition for_insert (H : history) (i : nat) (d : dcall) : bool :=
  match owner H (d_addr d) with Some j => j =? i | None => false end.
Fixpoint deaths (H : history) (i : nat) : nat :=
  match H with
  | [] => 0
  | ev :: H' => length (filter (for_insert H' i) (ev_del ev)) + deaths H' i
  end.

(** Event [ev] replaces or erases the entry for [k]. *)
Definition overwrites (ev : event) (k : bytes) : bool :=
  match ev_call ev with
  | CInsert k' _ _ _ | CErase k' => bytes_eqb k k'
  | _ => false
  end.
(** Some event after number [i] did so. *)
Fixpoint superseded (H : history) (i : nat) (k : bytes) : bool :=
  match H with
  | [] => false
  | ev :: H' => ((i <? length H') && overwrites ev k) || superseded H' i k
  end.

(** The capacity of each of the 16 shards for a requested capacity (a size_t):
    a sixteenth, rounded up. *)
Definition shard_cap (capacity : N) : N := (u64 (capacity + 15) / 16)%N.

(** The entry made by Insert number [i] is in the cache: it was put there, has
    not been replaced or erased since and has not been dropped. *)
Definition cached (cap : N) (H : history) (i : nat) : bool :=
  match insert_at H i with
  | Some (k, _, _, _) => N.ltb 0 (shard_cap cap) && negb (superseded H i k) && (deaths H i =? 0)
  | None => false
  end.

Definition charge_of (H : history) (i : nat) : N :=
  match insert_at H i with Some (_, _, c, _) => c | None => 0%N end.
Definition key_of_insert (H : history) (i : nat) : bytes :=
  match insert_at H i with Some (k, _, _, _) => k | None => [] end.

Definition sumN (l : list N) : N := fold_right N.add 0%N l.

(** The numbers of the cached entries, and their total charge. *)
Definition cached_list (cap : N) (H : history) : list nat := filter (cached cap H) (seq 0 (length H)).
Definition total (cap : N) (H : history) : N := sumN (map (charge_of H) (cached_list cap H)).

(** A key belongs to the shard given by the top 4 bits of its 32-bit hash. *)
Definition shard_of (hashf : bytes -> N) (k : bytes) : N := (hashf k / 2 ^ 28)%N.
Definition in_shard (hashf : bytes -> N) (s : N) (H : history) (i : nat) : bool :=
  N.eqb (shard_of hashf (key_of_insert H i)) s.
Definition shard_total (hashf : bytes -> N) (cap : N) (s : N) (H : history) : N :=
  sumN (map (charge_of H) (filter (in_shard hashf s H) (cached_list cap H))).

(** The number of the last Release of handle [h]. *)
Fixpoint last_release (H : history) (h : nat) : nat :=
  match H with
  | [] => 0
  | ev :: H' => match ev_call ev with
                | CRelease p => if p =? h then length H' else last_release H' h
                | _ => last_release H' h
                end
  end.

(** The handle returned by Insert number [i], the time the entry was last given
    back, and whether somebody holds it. *)
Definition handle_of (H : history) (i : nat) : nat :=
  match nth_error (rev H) i with
  | Some ev => match ev_res ev with RHandle p => p | _ => 0 end
  | None => 0
  end.
Definition idle_since (H : history) (i : nat) : nat := last_release H (handle_of H i).
Definition in_use (H : history) (i : nat) : Prop := exists h, owner H h = Some i /\ 0 < held H h.

(** The entries dropped for lack of room by an Insert of [k], the newest event
    of [ev :: H]: cached before, no longer cached, and not replaced by it. *)
Definition evicted (cap : N) (H : history) (ev : event) (k : bytes) (i : nat) : bool :=
  cached cap H i && negb (cached cap (ev :: H) i) && negb (bytes_eqb (key_of_insert H i) k).

(** Entries whose memory is in use: inserted and not deleted. *)
Definition alive (H : history) (i : nat) : bool :=
  match insert_at H i with Some _ => deaths H i =? 0 | None => false end.
Definition alive_count (H : history) : nat := length (filter (alive H) (seq 0 (length H))).

(** What the caller must respect: only held handles are released or read; a
    charge is a size_t; fewer than 2^31 entries exist at a time and no handle is
    taken 2^32-2 times without release (both counters are uint32_t). *)
Definition legal (H : history) (x : call) : Prop :=
  match x with
  | CInsert _ _ c _ => (c < 2 ^ 64)%N /\ (N.of_nat (alive_count H) < 2 ^ 31)%N
  | CLookup _ => forall h, (N.of_nat (held H h) < 2 ^ 32 - 2)%N
  | CRelease h | CValue h => 0 < held H h
  | CErase _ | CPrune | CTotalCharge | CNewId => True
  | CPruneShard i | CShardCharge i => i < 16
  end.
