(** LoggerSpec.v -- what a log line is. *)
From Coq Require Import List NArith ZArith.
From Verif Require Import LoggingSpec.
Import ListNotations.

(** exactly [w] decimal digits denoting [n] *)
Definition digits_of (w : nat) (n : Z) (ds : list N) : Prop :=
  length ds = w /\ Forall is_digit ds /\ Z.of_N (dec_value ds) = n.

(** YYYY/MM/DD-hh:mm:ss.uuuuuu THREAD and a space; the thread id is cut to 32
    characters *)
Definition log_header (year month day hour min sec usec : Z) (thread hdr : list N) : Prop :=
  exists yy mo dd hh mi ss uu,
    digits_of 4 year yy /\ digits_of 2 month mo /\ digits_of 2 day dd /\ digits_of 2 hour hh /\
    digits_of 2 min mi /\ digits_of 2 sec ss /\ digits_of 6 usec uu /\
    hdr = (yy ++ [47] ++ mo ++ [47] ++ dd ++ [45] ++ hh ++ [58] ++ mi ++ [58] ++ ss ++ [46] ++ uu ++
           [32] ++ firstn 32 thread ++ [32])%N.

(** a text made to end with a newline *)
Definition with_newline (text : list N) : list N :=
  match rev text with 10%N :: _ => text | _ => text ++ [10%N] end.
