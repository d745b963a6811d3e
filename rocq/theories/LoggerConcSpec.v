(** LoggerConcSpec.v -- what it means that concurrent log lines stay whole. *)
From Coq Require Import List Arith NArith ZArith.
From Verif Require Import Outcome Logger LoggerConc.
Import ListNotations.

Definition prefix {A} (a b : list A) : Prop := exists c, b = a ++ c.
(** What a call hands to fwrite. *)
Definition line (c : lcall) : list N := concat (map (fun e => match e with LFwrite d => d | _ => [] end) (c_does c)).
(** The line of call number [k]. *)
Definition line_no (cf : lconf) (k : nat) : list N := match nth_error (l_calls cf) k with Some c => line c | None => [] end.
(** Call [k] has returned; call [a] had returned when call [b] was made. *)
Definition returned (cf : lconf) (k : nat) : Prop := In (LEnd k) (l_trace cf).
Definition earlier (cf : lconf) (a b : nat) : Prop := exists l1 l2 l3, l_trace cf = l1 ++ LBegin b :: l2 ++ LEnd a :: l3.
(** [a] stands before [b] in a list. *)
Definition stands_before (l : list nat) (a b : nat) : Prop := exists l1 l2 l3, l = l1 ++ a :: l2 ++ b :: l3.
(** No call is going on. *)
Definition quiet (cf : lconf) : Prop := forall t, l_thr cf t = LIdle.
