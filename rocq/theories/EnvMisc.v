(** EnvMisc.v -- the environments made out of another one: EnvWapper
    (include/lsmdb/env.h:274-343), ErrorEnv (util/test_util.h:45-78), the calls of
    the in-memory environment that have nothing to do with files
    (helpers/memenv/memenv.cc), the default NewAppendableFile and Log (util/env.cc).

    An environment is a function from its state and a call to the new state and
    the answer.  A pointer stored through an out-parameter is [PObj o], [PNull],
    or [PUnset] when nothing was stored. *)
From Coq Require Import List Arith NArith ZArith Lia Bool.
From Verif Require Import Outcome Status MemEnv EnvUtil.
Import ListNotations.
Local Open Scope outcome_scope.

(** The virtual methods of Env, env.h:63-175; functions, arguments and locks are
    numbers *)
Inductive ecall :=
| ENewSequential (f : str) | ENewRandom (f : str) | ENewWritable (f : str) | ENewAppendable (f : str)
| EExists (f : str) | EChildren (d : str) | ERemove (f : str) | ECreateDir (d : str) | ERemoveDir (d : str)
| ESize (f : str) | ERename (src target : str)
| ELock (f : str) | EUnlock (l : nat)
| ESchedule (fn arg : N) | EStartThread (fn arg : N)
| ETestDirectory | ENewLogger (f : str) | ENowMicros | ESleep (micros : Z).
(** Everything a call can deliver. *)
Record eres := mk_eres { r_status : status; r_ptr : ptr; r_num : N; r_bool : bool; r_names : list str; r_str : str }.
Definition res_of (s : status) (p : ptr) : eres := mk_eres s p 0 false [] [].

(** "NewAppendableFile" and "fake error" *)
Definition msg_appendable : str := [78; 101; 119; 65; 112; 112; 101; 110; 100; 97; 98; 108; 101; 70; 105; 108; 101]%N.
Definition msg_fake : str := [102; 97; 107; 101; 32; 101; 114; 114; 111; 114]%N.

(** Env::NewAppendableFile, env.cc:24-26: nothing is stored in [*result]. *)
Definition default_new_appendable (f : str) : eres := res_of (SErr NotSupported msg_appendable f) PUnset.

Section Wrap.
  Variable S : Type.
  Variable target : S -> ecall -> S * eres.

  (** EnvWapper, env.h:284-339 *)
  Definition wrapper (s : S) (c : ecall) : S * eres :=
    match c with
    | ENewSequential f => target s (ENewSequential f)
    | ENewRandom f => target s (ENewRandom f)
    | ENewWritable f => target s (ENewWritable f)
    | ENewAppendable f => target s (ENewAppendable f)
    | EExists f => target s (EExists f)
    | EChildren d => target s (EChildren d)
    | ERemove f => target s (ERemove f)
    | ECreateDir d => target s (ECreateDir d)
    | ERemoveDir d => target s (ERemoveDir d)
    | ESize f => target s (ESize f)
    | ERename a b => target s (ERename a b)
    | ELock f => target s (ELock f)
    | EUnlock l => target s (EUnlock l)
    | ESchedule f a => target s (ESchedule f a)
    | EStartThread f a => target s (EStartThread f a)
    | ETestDirectory => target s ETestDirectory
    | ENewLogger f => target s (ENewLogger f)
    | ENowMicros => target s ENowMicros
    | ESleep m => target s (ESleep m)
    end.

  (** ErrorEnv, test_util.h:45-78.  [x_errors]: num_writable_file_errors_ (an int;
      its overflow is not modelled). *)
  Record xenv := mk_xenv { x_target : S; x_on : bool; x_errors : nat }.
  Definition error_env (e : xenv) (c : ecall) : xenv * eres :=
    let fwd c := let '(s, r) := wrapper (x_target e) c in (mk_xenv s (x_on e) (x_errors e), r) in
    match c with
    | ENewWritable f =>
        if x_on e then (mk_xenv (x_target e) (x_on e) (x_errors e + 1), res_of (SErr IOError f msg_fake) PNull)
        else fwd (ENewWritable f)
    | ENewAppendable f =>
        if x_on e then (mk_xenv (x_target e) (x_on e) (x_errors e + 1), res_of (SErr IOError f msg_fake) PNull)
        else fwd (ENewAppendable f)
    | _ => fwd c
    end.
  (** what a test does with it: calls, and assignments to the public flag *)
  Inductive xop := XCall (c : ecall) | XSet (b : bool).
  Definition xstep (e : xenv) (o : xop) : xenv * list eres :=
    match o with
    | XCall c => let '(e, r) := error_env e c in (e, [r])
    | XSet b => (mk_xenv (x_target e) b (x_errors e), [])
    end.
  Fixpoint xrun (e : xenv) (l : list xop) : xenv * list eres :=
    match l with
    | [] => (e, [])
    | o :: l' => let '(e, r) := xstep e o in let '(e, rs) := xrun e l' in (e, r ++ rs)
    end.
End Wrap.
Arguments mk_xenv {S}.
Arguments x_target {S}.
Arguments x_on {S}.
Arguments x_errors {S}.

(** Log, env.cc:38-45: [fmt] stands for the format and its arguments.  The calls of
    Logv, as pairs of the logger and [fmt]. *)
Definition Log (info_log : ptr) (fmt : str) : outcome (list (nat * str)) :=
  match info_log with
  | PNull => Ret []
  | PObj o => Ret [(o, fmt)]
  | PUnset => UB
  end.

(** ** The in-memory environment: what is not about files *)
(** "/test" *)
Definition test_dir : str := [47; 116; 101; 115; 116]%N.
(** [n_base]: the base environment's state; [n_locks]: the FileLocks that exist;
    [n_next]: the number of the next object *)
Section Mem.
  Variable S : Type.
  Variable base : S -> ecall -> S * eres.
  Record nenv := mk_nenv { n_base : S; n_locks : list nat; n_loggers : list nat; n_next : nat }.
  (** memenv.cc:331 and 333, 359-377; Schedule, StartThread, NowMicros and
      SleepForMicroseconds are inherited from EnvWapper.  Deleting a lock that does
      not exist is UB.  [None]: a call about files (MemEnv.v). *)
  Definition mem_misc (e : nenv) (c : ecall) : option (outcome (nenv * eres)) :=
    match c with
    | ECreateDir _ => Some (Ret (e, res_of SOk PUnset))
    | ERemoveDir _ => Some (Ret (e, res_of SOk PUnset))
    | ELock _ => Some (Ret (mk_nenv (n_base e) (n_next e :: n_locks e) (n_loggers e) (n_next e + 1), res_of SOk (PObj (n_next e))))
    | EUnlock l =>
        Some (if existsb (Nat.eqb l) (n_locks e)
              then Ret (mk_nenv (n_base e) (filter (fun l' => negb (l =? l')) (n_locks e)) (n_loggers e) (n_next e), res_of SOk PUnset)
              else UB)
    | ETestDirectory => Some (Ret (e, mk_eres SOk PUnset 0 false [] test_dir))
    | ENewLogger _ => Some (Ret (mk_nenv (n_base e) (n_locks e) (n_next e :: n_loggers e) (n_next e + 1), res_of SOk (PObj (n_next e))))
    | ESchedule _ _ | EStartThread _ _ | ENowMicros | ESleep _ =>
        let '(s, r) := wrapper S base (n_base e) c in
        Some (Ret (mk_nenv s (n_locks e) (n_loggers e) (n_next e), r))
    | _ => None
    end.
  (** NoOpLogger::Logv, memenv.cc:217-220: the bytes it writes *)
  Definition noop_logv (fmt : str) : list N := [].
  (** A sequence of such calls: the answers, newest first. *)
  Inductive nruns (e0 : nenv) : list (ecall * eres) -> nenv -> Prop :=
  | nr_start : nruns e0 [] e0
  | nr_call l e c e' r : nruns e0 l e -> mem_misc e c = Some (Ret (e', r)) -> nruns e0 ((c, r) :: l) e'.
End Mem.
Arguments mk_nenv {S}.
Arguments n_base {S}.
Arguments n_locks {S}.
Arguments n_loggers {S}.
Arguments n_next {S}.
