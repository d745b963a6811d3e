(** SkipListOomConcSpec.v -- what C119 says about readers beside insertions of which
    some throw, in terms of the writer's history. *)
From Coq Require Import List Arith ZArith Lia Bool.
From Verif Require Import Outcome SkipList SkipListSpec SkipListConc SkipListConcSpec SkipListOom.
Import ListNotations.

(** Result of an operation that started with view [ts] and returned when [te] stores
    had been performed, as in SkipListConcSpec.v, given which keys had been inserted
    ([ret]) and which were being inserted ([cal]) by then.  [kf], [kr]: keys at the old
    and new iterator position, None if invalid. *)
Definition result_ok_of {K} (cmp : K -> K -> Z) (ret cal : nat -> K -> Prop) (o : op K) (ts te : nat) (kf kr : option K) (b : bool) : Prop :=
  (match o with OContains _ => True | _ => forall k, kr = Some k -> cal te k end) /\
  match o with
  | OContains k =>
      ((exists k', ret ts k' /\ cmp k k' = 0%Z) -> b = true) /\
      ((forall k', cal te k' -> cmp k k' <> 0%Z) -> b = false)
  | OSeek t =>
      match kr with
      | Some k => (0 <= cmp k t)%Z /\
                  (forall k', ret ts k' -> ~ ((0 <= cmp k' t)%Z /\ (cmp k' k < 0)%Z))
      | None => forall k', ret ts k' -> (cmp k' t < 0)%Z
      end
  | OFirst =>
      match kr with
      | Some k => forall k', ret ts k' -> ~ (cmp k' k < 0)%Z
      | None => forall k', ~ ret ts k'
      end
  | OLast =>
      match kr with
      | Some k => forall k', ret ts k' -> ~ (cmp k k' < 0)%Z
      | None => forall k', ~ ret ts k'
      end
  | ONext =>
      exists f, kf = Some f /\
      match kr with
      | Some k => (cmp f k < 0)%Z /\
                  (forall k', ret ts k' -> ~ ((cmp f k' < 0)%Z /\ (cmp k' k < 0)%Z))
      | None => forall k', ret ts k' -> ~ (cmp f k' < 0)%Z
      end
  | OPrev =>
      exists f, kf = Some f /\
      match kr with
      | Some k => (cmp k f < 0)%Z /\
                  (forall k', ret ts k' -> ~ ((cmp k k' < 0)%Z /\ (cmp k' f < 0)%Z))
      | None => forall k', ret ts k' -> ~ (cmp k' f < 0)%Z
      end
  end.
Lemma result_ok_same {K} (cmp : K -> K -> Z) s0 hist : result_ok cmp s0 hist = result_ok_of cmp (returned cmp s0 hist) (called cmp s0 hist).
Proof. reflexivity. Qed.

Section Spec.
  Context {K : Type} (cmp : K -> K -> Z).
  Variable s0 : skiplist K.                    (* the list after construction *)
  Variable hist : list (K * nat * bool).       (* the writer's insertions: key, height, whether it throws *)

  (** The number of stores the writer has made when it comes back from the last of the
      insertions [h1]. *)
  Definition ostores_of (h1 : list (K * nat * bool)) (n : nat) : Prop :=
    exists s1, oinsert_all cmp true s0 h1 = Ret s1 /\ length (sl_log s1) = n.

  (** An Insert(k) that did not throw had returned within the first [t] stores. *)
  Definition inserted (t : nat) (k : K) : Prop :=
    exists h1 h2 n, hist = h1 ++ h2 /\ ostores_of h1 n /\ n <= t /\ exists h, In (k, h, false) h1.

  (** An Insert(k) that does not throw had been called within the first [t] stores. *)
  Definition inserting (t : nat) (k : K) : Prop :=
    exists h1 h h2 n, hist = h1 ++ (k, h, false) :: h2 /\ ostores_of h1 n /\ n < t.
End Spec.
