(** StatusOom.v -- include/lsmdb/status.h and util/status.cc when memory runs out.

    Status.v lets every operator new[] succeed.  Here the new[] of an operation may
    throw std::bad_alloc; the operation does not catch it, so what it had changed by
    then stays changed, and a variable whose constructor throws does not come to life.
    The program is assumed to catch the exception and to go on. *)
From Coq Require Import List Arith NArith Lia Bool.
From Verif Require Import Outcome Heap Status.
Import ListNotations.
Local Open Scope outcome_scope.

Section Model.
  Variable alc : allocator.
  Variable dbg : bool.

  (** CopyState up to its new[], which throws: status.cc:19-20 *)
  Definition CopyState_throws (h : sheap) (a : nat) : outcome unit :=
    let! src := deref h a in
    let! _ := bread_n src 0 4 in
    Ret tt.

  (** One operation; [oom]: a new[] it executes throws.  The second component of the
      result: the operation threw. *)
  Definition mstep (s : sst) (o : sop) (oom : bool) : outcome (sst * bool) :=
    let h := s_heap s in let vs := s_vars s in
    match o, oom with
    | OpErr v k m m2, true => (* status.cc:26-32 *)
        let! _ := assert_ dbg (negb (factory_code k =? kOk)%N) in
        Ret (s, true)
    | OpCopyCtor v w, true => (* status.h:98-100 *)
        let! pw := getv vs w in
        match pw with
        | None => Ret ({| s_heap := h; s_vars := hput vs v None |}, false)
        | Some a => let! _ := CopyState_throws h a in Ret (s, true)
        end
    | OpCopyAssign v w, true => (* status.h:102-110: state_ is deleted before CopyState *)
        let! pv := getv vs v in
        let! pw := getv vs w in
        if (match pv, pw with
            | None, None => true
            | Some a, Some b => a =? b
            | _, _ => false
            end) then Ret (s, false)
        else
          let! h1 := delete_arr h pv in
          match pw with
          | None => Ret ({| s_heap := h1; s_vars := hput vs v None |}, false)
          | Some b => let! _ := CopyState_throws h1 b in Ret ({| s_heap := h1; s_vars := vs |}, true)
          end
    | _, _ => (* no new[] in it, or none that fails *)
        let! s1 := sstep alc dbg s o in Ret (s1, false)
    end.

  (** A program: the state at its end and which operations threw. *)
  Fixpoint mrun (s : sst) (ops : list (sop * bool)) : outcome (sst * list bool) :=
    match ops with
    | [] => Ret (s, [])
    | (o, oom) :: r =>
        let! (s1, t) := mstep s o oom in
        let! (s2, ts) := mrun s1 r in
        Ret (s2, t :: ts)
    end.
End Model.
