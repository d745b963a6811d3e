(** SkipListConcSpec.v -- what C28 - C30 say about concurrent readers, in
    terms of the writer's history of Inserts. *)
From Coq Require Import List Arith ZArith Lia Bool.
From Verif Require Import Outcome SkipList SkipListSpec SkipListConc.
Import ListNotations.

Section Spec.
  Context {K : Type} (cmp : K -> K -> Z).
  Variable s0 : skiplist K.              (* the list after construction *)
  Variable hist : list (K * nat).        (* the writer's insertions with heights *)

  (** The number of stores the writer has made when it returns from the last
      of the insertions [h1]. *)
  Definition stores_of (h1 : list (K * nat)) (n : nat) : Prop :=
    exists s1, insert_all cmp true s0 h1 = Ret s1 /\ length (sl_log s1) = n.

  (** Insert(k) had returned within the first [t] stores. *)
  Definition returned (t : nat) (k : K) : Prop :=
    exists h1 h2 n, hist = h1 ++ h2 /\ stores_of h1 n /\ n <= t /\ In k (map fst h1).

  (** Insert(k) had been called within the first [t] stores. *)
  Definition called (t : nat) (k : K) : Prop :=
    exists h1 h h2 n, hist = h1 ++ (k, h) :: h2 /\ stores_of h1 n /\ n < t.

  (** The key at an iterator position, None if invalid. *)
  Definition at_key (m : mem K) (it : Iterator) (ko : option K) : Prop :=
    match it with
    | None => ko = None
    | Some _ => exists k, iter_key false m it = Ret k /\ ko = Some k
    end.

  (** Result of an operation that started with view [ts] and returned when
      [te] stores had been performed.  [kf], [kr]: keys at the old and new
      iterator position, None if invalid. *)
  Definition result_ok (o : op K) (ts te : nat) (kf kr : option K) (b : bool) : Prop :=
    (* only keys whose Insert had been called *)
    (match o with OContains _ => True | _ => forall k, kr = Some k -> called te k end) /\
    match o with
    | OContains k =>
        ((exists k', returned ts k' /\ cmp k k' = 0%Z) -> b = true) /\
        ((forall k', called te k' -> cmp k k' <> 0%Z) -> b = false)
    | OSeek t =>
        match kr with
        | Some k => (0 <= cmp k t)%Z /\
                    (forall k', returned ts k' -> ~ ((0 <= cmp k' t)%Z /\ (cmp k' k < 0)%Z))
        | None => forall k', returned ts k' -> (cmp k' t < 0)%Z
        end
    | OFirst =>
        match kr with
        | Some k => forall k', returned ts k' -> ~ (cmp k' k < 0)%Z
        | None => forall k', ~ returned ts k'
        end
    | OLast =>
        match kr with
        | Some k => forall k', returned ts k' -> ~ (cmp k k' < 0)%Z
        | None => forall k', ~ returned ts k'
        end
    | ONext =>
        exists f, kf = Some f /\
        match kr with
        | Some k => (cmp f k < 0)%Z /\
                    (forall k', returned ts k' -> ~ ((cmp f k' < 0)%Z /\ (cmp k' k < 0)%Z))
        | None => forall k', returned ts k' -> ~ (cmp f k' < 0)%Z
        end
    | OPrev =>
        exists f, kf = Some f /\
        match kr with
        | Some k => (cmp k f < 0)%Z /\
                    (forall k', returned ts k' -> ~ ((cmp k k' < 0)%Z /\ (cmp k' f < 0)%Z))
        | None => forall k', returned ts k' -> ~ (cmp k' f < 0)%Z
        end
    end.
End Spec.
