(** PosixReadSpec.v -- files as the kernel serves them, and what readers see. *)
From Coq Require Import List Arith NArith ZArith Lia Bool.
From Verif Require Import Outcome Status MemEnv PosixOs PosixFd PosixRead EnvUtil.
Import ListNotations.

(** ** Sequential reading.  [plays content fd p l p']: the answers in [l] are those
    of a kernel serving [content] on descriptor [fd], whose position moves from
    [p] to [p'].  Reads may be short, and may fail; only at the end of the file
    (or when asked for nothing) do they deliver nothing. *)
Inductive plays (content : list N) (fd : Z) : Z -> log -> Z -> Prop :=
| pl_nil p : plays content fd p [] p
| pl_fail p n a l p' : (a_ret a < 0)%Z -> plays content fd p l p' -> plays content fd p ((CRead fd n, a) :: l) p'
| pl_read p n a l p' :
    a_ret a = Z.of_nat (length (a_data a)) -> (N.of_nat (length (a_data a)) <= n)%N ->
    a_data a = firstn (length (a_data a)) (skipn (Z.to_nat p) content) ->
    (a_data a = [] -> n = 0%N \/ (Z.of_nat (length content) <= p)%Z) ->
    plays content fd (p + a_ret a) l p' -> plays content fd p ((CRead fd n, a) :: l) p'
| pl_seek p off a l p' :
    a_ret a = (p + off)%Z -> (0 <= p + off)%Z -> plays content fd (p + off) l p' -> plays content fd p ((CLseek fd off, a) :: l) p'
| pl_seek_fail p off a l p' :
    a_ret a = (-1)%Z -> plays content fd p l p' -> plays content fd p ((CLseek fd off, a) :: l) p'.

(** What the caller sees: each successful Read delivers the bytes from the current
    position on, nothing only at the end; failures do not move.  Skip moves by its
    argument taken as an off_t. *)
Inductive delivers (content : list N) : Z -> list scall -> list (status * list N) -> Z -> Prop :=
| dl_nil p : delivers content p [] [] p
| dl_read p n d cs rs p' :
    d = firstn (length d) (skipn (Z.to_nat p) content) -> (N.of_nat (length d) <= n)%N ->
    (d = [] -> n = 0%N \/ (Z.of_nat (length content) <= p)%Z) ->
    delivers content (p + Z.of_nat (length d)) cs rs p' -> delivers content p (SqRead n :: cs) ((SOk, d) :: rs) p'
| dl_read_err p n st cs rs p' : st <> SOk -> delivers content p cs rs p' -> delivers content p (SqRead n :: cs) ((st, []) :: rs) p'
| dl_skip p n cs rs p' : (0 <= p + off_t n)%Z ->
    delivers content (p + off_t n) cs rs p' -> delivers content p (SqSkip n :: cs) ((SOk, []) :: rs) p'
| dl_skip_err p n st cs rs p' : st <> SOk -> delivers content p cs rs p' -> delivers content p (SqSkip n :: cs) ((st, []) :: rs) p'.

(** The POSIX environment as an environment for the helpers of env.cc: only the
    calls ReadFileToString makes. *)
Definition posix_io {S} (strerror : Z -> str) (os : S -> syscall -> S * answer) (fuel : nat)
    (s : world S * list seqfile) (c : io_call) : outcome ((world S * list seqfile) * io_res) :=
  let '(w, fs) := s in
  match c with
  | INewSequential name =>
      let '(w, f, st) := new_sequential strerror S os w name in
      Ret (match f with
           | Some f => ((w, fs ++ [f]), mk_io st (PObj (length fs)) [])
           | None => ((w, fs), mk_io st PNull [])
           end)
  | IRead o n =>
      match nth_error fs o with
      | Some f => bind (seq_read strerror S os fuel w f n) (fun r =>
                    Ret ((fst (fst r), fs), mk_io (snd (fst r)) PUnset (match snd r with Bytes d => d | _ => [] end)))
      | None => UB
      end
  | IDelete o =>
      match nth_error fs o with
      | Some f => Ret ((seq_delete S os w f, fs), mk_io SOk PUnset [])
      | None => UB
      end
  | _ => UB
  end.

(** ** Random access.  A kernel that serves the unchanging file [content] under
    [name]: preads are complete, a mapping of length 0 is refused. *)
Record serves {S} (os : S -> syscall -> S * answer) (name : str) (content : list N) : Prop := {
  sv_open : forall s, (0 <= a_ret (snd (os s (COpen name RdOnly))))%Z;
  sv_stat : forall s, a_ret (snd (os s (CStat name))) = 0%Z /\ a_val (snd (os s (CStat name))) = N.of_nat (length content);
  sv_pread : forall s fd n off, (0 <= fd)%Z -> (0 <= off)%Z ->
    let a := snd (os s (CPread fd n off)) in
    a_data a = firstn (N.to_nat n) (skipn (Z.to_nat off) content) /\ a_ret a = Z.of_nat (length (a_data a));
  sv_pread_neg : forall s fd n off, (off < 0)%Z -> a_ret (snd (os s (CPread fd n off))) = (-1)%Z /\ a_errno (snd (os s (CPread fd n off))) = EINVAL;
  sv_mmap : forall s fd len, (a_ret (snd (os s (CMmap fd len))) = (-1)%Z <-> len = 0%N) /\ (len = 0%N -> a_errno (snd (os s (CMmap fd len))) = EINVAL)
}.

(** ** Accounting *)
Definition is_mmap (f : ranfile) : bool := match f with RMmap _ _ _ => true | _ => false end.
Definition is_perm (f : ranfile) : bool := match f with RPerm _ _ => true | _ => false end.
Definition count (p : ranfile -> bool) (l : list (nat * ranfile)) : nat := length (filter (fun x => p (snd x)) l).
(** Mapped regions after [l]; [None] if something not mapped is unmapped. *)
Fixpoint unmap (base len : N) (ms : list (N * N)) : option (list (N * N)) :=
  match ms with
  | [] => None
  | m :: ms' => if N.eqb base (fst m) && N.eqb len (snd m) then Some ms' else option_map (cons m) (unmap base len ms')
  end.
Fixpoint maps_after (ms : list (N * N)) (l : log) : option (list (N * N)) :=
  match l with
  | [] => Some ms
  | (CMmap _ len, a) :: l' => maps_after (if (a_ret a =? -1)%Z then ms else (a_val a, len) :: ms) l'
  | (CMunmap base len, _) :: l' => match unmap base len ms with Some ms' => maps_after ms' l' | None => None end
  | _ :: l' => maps_after ms l'
  end.
(** Descriptors and regions owned by live objects. *)
Definition owned_fds (l : list (nat * ranfile)) : list Z :=
  flat_map (fun x => match snd x with RPerm fd _ => [fd] | _ => [] end) l.
Definition owned_maps (l : list (nat * ranfile)) : list (N * N) :=
  flat_map (fun x => match snd x with RMmap b n _ => [(b, n)] | _ => [] end) l.

(** A kernel that serves [content] under [name] without errors; [pos] is the
    position of the descriptor last opened (one reader). *)
Record healthy {S} (os : S -> syscall -> S * answer) (name : str) (content : list N) (pos : S -> nat) : Prop := {
  hl_open : forall s, (0 <= a_ret (snd (os s (COpen name RdOnly))))%Z /\ pos (fst (os s (COpen name RdOnly))) = 0;
  hl_read : forall s fd n, (0 < n)%N -> exists k,
    (N.of_nat k <= n)%N /\ k <= length content - pos s /\ (k = 0 -> length content <= pos s) /\
    a_data (snd (os s (CRead fd n))) = firstn k (skipn (pos s) content) /\ a_ret (snd (os s (CRead fd n))) = Z.of_nat k /\
    pos (fst (os s (CRead fd n))) = pos s + k
}.

(** ** A small kernel for examples: one file, whose reads are at most two bytes
    long; the state is the position of its one descriptor. *)
Definition toy_os (content : list N) (s : nat) (c : syscall) : nat * answer :=
  let n := length content in
  match c with
  | COpen _ _ => (0, mk_answer 3 0 [] 0)
  | CRead _ k => let d := firstn (N.to_nat (N.min k 2)) (skipn s content) in (s + length d, mk_answer (Z.of_nat (length d)) 0 d 0)
  | CLseek _ off => let p := (Z.of_nat s + off)%Z in
      if (p <? 0)%Z then (s, mk_answer (-1) EINVAL [] 0) else (Z.to_nat p, mk_answer p 0 [] 0)
  | CPread _ k off => if (off <? 0)%Z then (s, mk_answer (-1) EINVAL [] 0) else
      let d := firstn (N.to_nat k) (skipn (Z.to_nat off) content) in (s, mk_answer (Z.of_nat (length d)) 0 d 0)
  | CStat _ => (s, mk_answer 0 0 [] (N.of_nat n))
  | CMmap _ len => if N.eqb len 0 then (s, mk_answer (-1) EINVAL [] 0) else (s, mk_answer 4096 0 [] 4096)
  | _ => (s, mk_answer 0 0 [] 0)
  end.
