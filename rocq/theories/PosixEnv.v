(** PosixEnv.v -- model of the rest of class PosixEnv, util/env_posix.cc:489-785:
    the calls on names and directories, and the environment as a whole as one
    caller uses it.

    Names contain no NUL byte (c_str() would cut them). *)
From Coq Require Import List Arith NArith ZArith Lia Bool.
From Verif Require Import Outcome Status MemEnv PosixOs PosixWritable PosixRead.
Import ListNotations.
Local Open Scope outcome_scope.

Section Model.
  Variable dbg : bool.
  Variable B : nat.
  Variable strerror : Z -> str.
  Variable S : Type.
  Variable os : S -> syscall -> S * answer.
  Notation world := (world S).
  Notation sys := (sys os).
  Notation PosixError := (PosixError strerror).

  (** FileExists, env_posix.cc:576-578 *)
  Definition file_exists (w : world) (name : str) : world * bool :=
    let '(w, a) := sys w (CAccess name) in (w, (a_ret a =? 0)%Z).

  (** The loop of GetChildren, env_posix.cc:588-590; at most [fuel] calls of
      readdir(), whose answer is 0 for a null pointer. *)
  Fixpoint read_dir (fuel : nat) (w : world) (d : N) (result : list str) : outcome (world * list str) :=
    match fuel with
    | O => OutOfFuel
    | Datatypes.S fuel' =>
        let '(w, a) := sys w (CReaddir d) in
        if (a_ret a =? 0)%Z then Ret (w, result) else read_dir fuel' w d (result ++ [a_data a])
    end.
  (** GetChildren, env_posix.cc:580-593; the DIR pointer is [a_val] *)
  Definition get_children (fuel : nat) (w : world) (dir : str) : outcome (world * status * list str) :=
    let '(w, a) := sys w (COpendir dir) in
    if N.eqb (a_val a) 0 then Ret (w, PosixError dir (a_errno a), [])
    else
      let! (w, result) := read_dir fuel w (a_val a) [] in
      let '(w, _) := sys w (CClosedir (a_val a)) in
      Ret (w, SOk, result).

  (** RemoveFile, env_posix.cc:595-600 *)
  Definition remove_file (w : world) (filename : str) : world * status :=
    let '(w, a) := sys w (CUnlink filename) in
    (w, if negb (a_ret a =? 0)%Z then PosixError filename (a_errno a) else SOk).
  (** CreateDir, env_posix.cc:602-607 *)
  Definition create_dir (w : world) (dirname : str) : world * status :=
    let '(w, a) := sys w (CMkdir dirname) in
    (w, if negb (a_ret a =? 0)%Z then PosixError dirname (a_errno a) else SOk).
  (** RemoveDir, env_posix.cc:609-614 *)
  Definition remove_dir (w : world) (dirname : str) : world * status :=
    let '(w, a) := sys w (CRmdir dirname) in
    (w, if negb (a_ret a =? 0)%Z then PosixError dirname (a_errno a) else SOk).
  (** RenameFile, env_posix.cc:626-631 *)
  Definition rename_file (w : world) (from to : str) : world * status :=
    let '(w, a) := sys w (CRename from to) in
    (w, if negb (a_ret a =? 0)%Z then PosixError from (a_errno a) else SOk).

  (** ** The environment as a whole *)
  Inductive pcall :=
  | PNewSeq (f : str) | PNewRand (f : str) | PNewWrite (f : str) | PNewAppend (f : str)
  | PExists (f : str) | PChildren (d : str) | PRemove (f : str) | PSize (f : str) | PRename (a b : str)
  | PMkDir (d : str) | PRmDir (d : str)
  | PSRead (h : nat) (n : N) | PSSkip (h : nat) (n : N)
  | PRRead (h : nat) (off n : N)
  | PWAppend (h : nat) (d : list N) | PWClose (h : nat) | PWFlush (h : nat) | PWSync (h : nat)
  | PDelete (h : nat).
  Inductive presult :=
  | QStat (s : status) | QBool (b : bool) | QNames (s : status) (l : list str)
  | QSize (s : status) (n : N) | QData (s : status) (r : rslice).

  (** Live objects are kept under the number of the call that made them. *)
  Inductive pobj := ObW (f : wfile) | ObS (f : seqfile) | ObR (f : ranfile).
  Record penv := mk_penv { p_w : world; p_lim : limits; p_objs : list (nat * pobj) }.
  Fixpoint oget (l : list (nat * pobj)) (h : nat) : option pobj :=
    match l with [] => None | (p, o) :: l' => if p =? h then Some o else oget l' h end.
  Fixpoint oset (l : list (nat * pobj)) (h : nat) (o : pobj) : list (nat * pobj) :=
    match l with [] => [] | (p, x) :: l' => if p =? h then (p, o) :: l' else (p, x) :: oset l' h o end.
  Definition odel (l : list (nat * pobj)) (h : nat) : list (nat * pobj) := filter (fun x => negb (fst x =? h)) l.

  (** One call, the [n]-th.  Using an object that is not live, or as what it is
      not, is [UB]. *)
  Definition pwrite (fuel : nat) (e : penv) (h : nat) (o : wop) : outcome (penv * presult) :=
    match oget (p_objs e) h with
    | Some (ObW f) =>
        let! (w, f, st) := wstep B strerror S os fuel (p_w e) f o in
        Ret (mk_penv w (p_lim e) (oset (p_objs e) h (ObW f)), QStat st)
    | _ => UB
    end.
  Definition pnew (e : penv) (w : world) (lim : limits) (n : nat) (o : option pobj) (st : status) : penv * presult :=
    (mk_penv w lim (match o with Some o => (n, o) :: p_objs e | None => p_objs e end), QStat st).
  Definition pcall_ (fuel : nat) (e : penv) (n : nat) (x : pcall) : outcome (penv * presult) :=
    let w := p_w e in
    let with_w w := mk_penv w (p_lim e) (p_objs e) in
    match x with
    | PNewSeq f =>
        let '(w, o, st) := new_sequential strerror S os w f in Ret (pnew e w (p_lim e) n (option_map ObS o) st)
    | PNewRand f =>
        let '(w, lim, o, st) := new_random strerror S os w (p_lim e) f in Ret (pnew e w lim n (option_map ObR o) st)
    | PNewWrite f =>
        let! (w, o, st) := NewWritableFile dbg B strerror S os w f in Ret (pnew e w (p_lim e) n (option_map ObW o) st)
    | PNewAppend f =>
        let! (w, o, st) := NewAppendableFile dbg B strerror S os w f in Ret (pnew e w (p_lim e) n (option_map ObW o) st)
    | PExists f => let '(w, b) := file_exists w f in Ret (with_w w, QBool b)
    | PChildren d => let! (w, st, l) := get_children fuel w d in Ret (with_w w, QNames st l)
    | PRemove f => let '(w, st) := remove_file w f in Ret (with_w w, QStat st)
    | PSize f => let '(w, k, st) := get_file_size strerror S os w f in Ret (with_w w, QSize st k)
    | PRename a b => let '(w, st) := rename_file w a b in Ret (with_w w, QStat st)
    | PMkDir d => let '(w, st) := create_dir w d in Ret (with_w w, QStat st)
    | PRmDir d => let '(w, st) := remove_dir w d in Ret (with_w w, QStat st)
    | PSRead h k =>
        match oget (p_objs e) h with
        | Some (ObS f) => let! (w, st, r) := seq_read strerror S os fuel w f k in Ret (with_w w, QData st r)
        | _ => UB
        end
    | PSSkip h k =>
        match oget (p_objs e) h with
        | Some (ObS f) => let '(w, st) := seq_skip strerror S os w f k in Ret (with_w w, QStat st)
        | _ => UB
        end
    | PRRead h off k =>
        match oget (p_objs e) h with
        | Some (ObR f) => let! (w, st, r) := ran_read dbg strerror S os w f off k in Ret (with_w w, QData st r)
        | _ => UB
        end
    | PWAppend h d => pwrite fuel e h (OpAppend d)
    | PWClose h => pwrite fuel e h OpClose
    | PWFlush h => pwrite fuel e h OpFlush
    | PWSync h => pwrite fuel e h OpSync
    | PDelete h =>
        match oget (p_objs e) h with
        | Some (ObW f) =>
            let! w := destroy strerror S os fuel w f in
            Ret (mk_penv w (p_lim e) (odel (p_objs e) h), QStat SOk)
        | Some (ObS f) => Ret (mk_penv (seq_delete S os w f) (p_lim e) (odel (p_objs e) h), QStat SOk)
        | Some (ObR f) =>
            let! (w, lim) := ran_delete dbg S os w (p_lim e) f in
            Ret (mk_penv w lim (odel (p_objs e) h), QStat SOk)
        | None => UB
        end
    end.
End Model.
Arguments mk_penv {S}.
Arguments p_w {S}.
Arguments p_lim {S}.
Arguments p_objs {S}.
