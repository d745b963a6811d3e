(** EnvUtilSpec.v -- what the helpers of env.cc promise, in terms of the calls
    they make on the environment and the answers they get. *)
From Coq Require Import List Arith NArith Bool.
From Verif Require Import Outcome Status MemEnv MemEnvSpec EnvUtil.
Import ListNotations.

(** Calls on the object [o]. *)
Definition on_obj (o : nat) (c : io_call) : Prop :=
  match c with
  | IAppend o' _ | ISync o' | IClose o' | IRead o' _ | IDelete o' => o' = o
  | _ => False
  end.
(** [o] was deleted once, after all other calls on it. *)
Definition deleted_once (tr : trace) (o : nat) : Prop :=
  exists t1 r t2, tr = t1 ++ (IDelete o, r) :: t2 /\
    (forall c x, In (c, x) t1 -> c <> IDelete o) /\ (forall c x, In (c, x) t2 -> ~ on_obj o c).
(** The first answer that is not OK, of the calls that do the work (a destructor
    has no answer, RemoveFile only cleans up). *)
Fixpoint first_error (tr : trace) : status :=
  match tr with
  | [] => SOk
  | (c, r) :: tr' =>
      match c with
      | IDelete _ | IRemove _ => first_error tr'
      | _ => match io_status r with SOk => first_error tr' | s => s end
      end
  end.
(** The bytes delivered by successful reads, in order. *)
Fixpoint read_data (tr : trace) : list N :=
  match tr with
  | [] => []
  | (IRead _ _, r) :: tr' => (if ok (io_status r) then io_data r else []) ++ read_data tr'
  | _ :: tr' => read_data tr'
  end.

(** The in-memory environment as an [io].  Objects are named as in MemEnvSpec.v. *)
Definition mem_io (alc alb : Heap.allocator) (dbg : bool) (s : history * env) (c : io_call) : outcome ((history * env) * io_res) :=
  let '(H, e) := s in
  let x := match c with
           | INewWritable f => NewWrite f | INewSequential f => NewSeq f | IRemove f => Remove f
           | IAppend o d => WAppend o d | ISync o => WSync o | IClose o => WClose o
           | IRead o n => SRead o n | IDelete o => Delete o
           end in
  bind (exec alc alb dbg H e x) (fun r =>
    Ret ((snd r :: H, fst r),
         match ev_res (snd r) with
         | RStat st => mk_io st (match c with
                                 | INewWritable _ | INewSequential _ => match st with SOk => PObj (length H) | _ => PNull end
                                 | _ => PUnset end) []
         | RData st d => mk_io st PUnset d
         | _ => mk_io SOk PUnset []
         end)).
