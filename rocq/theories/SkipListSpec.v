(** SkipListSpec.v -- what C24 - C30 say, in terms of keys only. *)
From Coq Require Import List ZArith Lia Bool Sorted Permutation.
From Verif Require Import Outcome SkipList.
Import ListNotations.

(** A three-way comparator describing a strict total (pre)order: the sign of
    cmp b a is opposite to that of cmp a b, and "<= 0" is transitive. *)
Record comparator_ok {K} (cmp : K -> K -> Z) : Prop := {
  cmp_opp : forall a b, Z.sgn (cmp b a) = (- Z.sgn (cmp a b))%Z;
  cmp_le_trans : forall a b c, (cmp a b <= 0)%Z -> (cmp b c <= 0)%Z -> (cmp a c <= 0)%Z
}.

Section Spec.
  Context {K : Type} (cmp : K -> K -> Z).

  (** [k] equals one of the keys. *)
  Definition member (k : K) (ks : list K) : Prop := exists k', In k' ks /\ cmp k k' = 0%Z.

  (** No two keys of the history are equal (the precondition of Insert). *)
  Fixpoint distinct (ks : list K) : Prop :=
    match ks with
    | [] => True
    | k :: r => (forall k', In k' r -> cmp k k' <> 0%Z) /\ distinct r
    end.

  (** The sorted arrangement of the keys of a history. *)
  Definition sorted_view (ks sk : list K) : Prop :=
    Permutation ks sk /\ StronglySorted (fun a b => (cmp a b < 0)%Z) sk.

  (** Repeatedly reading the key and stepping visits exactly these keys and
      then becomes invalid. *)
  Inductive visits (key : Iterator -> outcome K) (step : Iterator -> outcome Iterator)
    : Iterator -> list K -> Prop :=
  | visits_end it : Valid it = false -> visits key step it []
  | visits_step it k it' ks :
      Valid it = true -> key it = Ret k -> step it = Ret it' ->
      visits key step it' ks -> visits key step it (k :: ks).

  (** Iterators a client can hold: any sequence of positioning calls. *)
  Inductive positioned (dbg : bool) (m : mem K) : Iterator -> Prop :=
  | pos_first it : iter_SeekToFirst m = Ret it -> positioned dbg m it
  | pos_last it : iter_SeekToLast m = Ret it -> positioned dbg m it
  | pos_seek t it : iter_Seek cmp m t = Ret it -> positioned dbg m it
  | pos_next it it' : positioned dbg m it -> Valid it = true ->
      iter_Next dbg m it = Ret it' -> positioned dbg m it'
  | pos_prev it it' : positioned dbg m it -> Valid it = true ->
      iter_Prev cmp dbg m it = Ret it' -> positioned dbg m it'.
End Spec.
