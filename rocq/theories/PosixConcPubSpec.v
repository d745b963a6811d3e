(** PosixConcPubSpec.v -- publishing a file: a client writes a temporary file, syncs
    it and renames it over the file that others read.  In terms of calls of the
    environment; traces are newest first. *)
From Coq Require Import List Arith NArith ZArith Lia Bool.
From Verif Require Import Outcome Status MemEnv PosixOs PosixWritable PosixRead PosixEnv PosixFs PosixEnvSpec EnvUtil PosixIoSpec PosixConc PosixConcSpec PosixConcWriteSpec.
Import ListNotations.
Notation trace := PosixConc.trace.
Notation on_obj := PosixConcWriteSpec.on_obj.

(** Calls that may change what is under the name [p]: those that open it for
    writing, remove or rename it, or put something in its place. *)
Definition touches (x : pcall) (p : str) : Prop :=
  match x with
  | PNewWrite g | PNewAppend g | PRemove g | PMkDir g | PRmDir g => g = p
  | PRename a b => a = p \/ b = p
  | _ => False
  end.

(** Call [h] is NewWritableFile(tmp) and call [r] is RenameFile(tmp, f), as far as
    they have begun; no other call touches the two names.  When RenameFile begins,
    NewWritableFile and a Sync on [h] have returned OK and so have all calls on [h]
    before it, all of [D] was appended by then, and nothing else ever. *)
Definition publishing (tr : trace) (h r : nat) (tmp f : str) (D : list N) : Prop :=
  (forall n x, call_no tr n = Some x -> touches x tmp \/ touches x f -> n = h /\ x = PNewWrite tmp \/ n = r /\ x = PRename tmp f) /\
  (forall later w earlier, tr = later ++ (Beg r (PRename tmp f), w) :: earlier ->
     exists l1 n v l2, earlier = l1 ++ (End n (RStat SOk), v) :: l2 /\ call_no l2 h = Some (PNewWrite tmp) /\ ended l2 h = Some (RStat SOk) /\
       call_no l2 n = Some (PWSync h) /\
       all_ok ((End n (RStat SOk), v) :: l2) h /\ handed l2 h = D /\ handed tr h = D).

(** What somebody sees who looks at the file [p]. *)
Definition look (v : view) (p : str) : option (list N) :=
  match v_name v p with Some i => Some (v_data v i) | None => None end.
(** No file has two names (there are no hard links). *)
Definition distinct (v : view) : Prop := forall p q i, v_name v p = Some i -> v_name v q = Some i -> p = q.

(** ** Clients that run the helpers of util/env.cc (EnvUtil.v) *)

(** The helpers run on an environment that gives the answers in the list. *)
Definition replay (s : list io_res) (c : io_call) : outcome (list io_res * io_res) :=
  match s with r :: s' => Ret (s', r) | [] => UB end.
(** Call [n'] began after call [n] had returned. *)
Definition follows (tr : trace) (n n' : nat) : Prop :=
  exists later x w earlier, tr = later ++ (Beg n' x, w) :: earlier /\ ended earlier n <> None.
(** The calls [ns] of the trace were made one after the other, and have returned:
    these calls with these answers. *)
Inductive in_turn (tr : trace) : list nat -> list (io_call * io_res) -> Prop :=
| it_nil : in_turn tr [] []
| it_cons n ns c r l : call_no tr n = Some (as_pcall c) -> ended tr n = Some r ->
    match ns with n' :: _ => follows tr n n' | [] => True end -> in_turn tr ns l ->
    in_turn tr (n :: ns) ((c, as_answer c n r) :: l).
(** The object made by one of the calls [ns] is used by the calls [ns] only. *)
Definition private (tr : trace) (ns : list nat) : Prop :=
  forall n x h, call_no tr n = Some x -> on x = Some h -> In h ns -> In n ns.
(** The calls [ns] are a run of ReadFileToString(f) that returned [st] and [data]. *)
Definition ran_read (tr : trace) (ns : list nat) (f : str) (st : status) (data : list N) : Prop :=
  private tr ns /\ exists fuel answers calls, read_file _ replay fuel answers f = Ret ([], calls, st, data) /\ in_turn tr ns calls.
(** ... of WriteStringToFileSync(data, f) that returned [st]. *)
Definition ran_write (tr : trace) (ns : list nat) (data : list N) (f : str) (st : status) : Prop :=
  private tr ns /\ exists answers calls, write_string_to_file_sync _ replay answers data f = Ret ([], calls, st) /\ in_turn tr ns calls.
