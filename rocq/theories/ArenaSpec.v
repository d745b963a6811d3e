(** ArenaSpec.v -- what the heap allocator promises, and regions. *)
From Coq Require Import List NArith.
From Verif Require Import Arena.
Import ListNotations.
Local Open Scope N_scope.

(** A region (pointer, length) covers address x. *)
Definition covers (r : N * N) (x : N) : Prop := fst r <= x < fst r + snd r.

Definition disjoint (r1 r2 : N * N) : Prop := forall x, covers r1 x -> covers r2 x -> False.

Fixpoint pairwise_disjoint (rs : list (N * N)) : Prop :=
  match rs with
  | [] => True
  | r :: t => Forall (disjoint r) t /\ pairwise_disjoint t
  end.

(** Replaying heap events; [live] lists live blocks as (base, size).
    [None]: a delete[] of something not live. *)
Fixpoint remove_block (base : N) (live : list (N * N)) : option (list (N * N)) :=
  match live with
  | [] => None
  | (b, n) :: t =>
      if b =? base then Some t
      else match remove_block base t with Some t' => Some ((b, n) :: t') | None => None end
  end.

Fixpoint replay (live : list (N * N)) (evs : list event) : option (list (N * N)) :=
  match evs with
  | [] => Some live
  | New n b :: r => replay (live ++ [(b, n)]) r
  | Del b :: r => match remove_block b live with Some l => replay l r | None => None end
  end.

(** The contract of operator new[]: an answer is non-null, 8-aligned, inside
    the address space and disjoint from every block already handed out. *)
Definition answer_ok (live : list (N * N)) (n b : N) : Prop :=
  0 < b /\ b mod 8 = 0 /\ b + n <= 2 ^ 64 /\ Forall (disjoint (b, n)) live.

(** All the new[] answers of a delete-free event sequence meet it. *)
Fixpoint answers_ok (live : list (N * N)) (evs : list event) : Prop :=
  match evs with
  | [] => True
  | New n b :: r => answer_ok live n b /\ answers_ok (live ++ [(b, n)]) r
  | Del _ :: _ => False
  end.

(** Calls a client may make: Allocate of at least one byte; sizes not within 8
    of the top of size_t. *)
Definition legal (o : aop) : Prop :=
  match o with
  | OpAllocate b => 0 < b < 2 ^ 64 - 8
  | OpAllocateAligned b => b < 2 ^ 64 - 8
  end.

Definition block_sizes (evs : list event) : list N :=
  flat_map (fun e => match e with New n _ => [n] | Del _ => [] end) evs.

Definition sum (l : list N) : N := fold_right N.add 0 l.
