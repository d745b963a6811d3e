(** PosixMisc.v -- model of the parts of class PosixEnv, util/env_posix.cc, that
    have nothing to do with files as such: GetTestDirectory, NewLogger, NowMicros
    and MaxOpenFiles. *)
From Coq Require Import List Arith NArith ZArith Lia Bool.
From Verif Require Import Outcome Status MemEnv Logging PosixOs PosixWritable PosixRead PosixEnv.
Import ListNotations.
Local Open Scope outcome_scope.

Section Model.
  Variable strerror : Z -> str.
  Variable S : Type.
  Variable os : S -> syscall -> S * answer.
  Notation world := (world S).
  Notation sys := (sys os).
  Notation PosixError := (PosixError strerror).

  (** GetTestDirectory, env_posix.cc:680-699.  [env]: getenv("TEST_TMPDIR");
      [euid]: geteuid(), a uid_t of 32 bits converted to int.  The text goes
      through the char buf[100] of line 685. *)
  Definition int_of_u32 (x : N) : Z := if (x <? 2 ^ 31)%N then Z.of_N x else (Z.of_N x - 2 ^ 32)%Z.
  Definition print_d (x : Z) : str :=
    if (x <? 0)%Z then 45%N :: print_llu (Z.to_N (- x)) else print_llu (Z.to_N x).
  Definition test_prefix : str := (* "/tmp/lsmdbtest-" *)
    [47;116;109;112;47;108;115;109;100;98;116;101;115;116;45]%N.
  Definition get_test_directory (w : world) (env : option str) (euid : N) : outcome (world * str * status) :=
    let! result := match env with
                   | Some (c :: r) => Ret (c :: r)
                   | _ => append_cstr [] (snprintf_buf 100 (test_prefix ++ print_d (int_of_u32 euid)))
                   end in
    let '(w, _) := create_dir strerror S os w result in
    Ret (w, result, SOk).

  (** NewLogger, env_posix.cc:701-719; the FILE pointer is [a_val].  After the
      close() on line 712 errno is that of close() if it failed, else still that
      of fdopen() (a successful close() leaves errno alone). *)
  Definition new_logger (w : world) (filename : str) : world * option N * status :=
    let '(w, a) := sys w (COpen filename WrAppend) in
    if (a_ret a <? 0)%Z then (w, None, PosixError filename (a_errno a))
    else
      let '(w, p) := sys w (CFdopen (a_ret a)) in
      if N.eqb (a_val p) 0 then
        let '(w, c) := sys w (CClose (a_ret a)) in
        (w, None, PosixError filename (if (a_ret c <? 0)%Z then a_errno c else a_errno p))
      else (w, Some (a_val p), SOk).
  (** ~PosixLogger, posix_logger.h:29 *)
  Definition delete_logger (w : world) (fp : N) : world := fst (sys w (CFclose fp)).
End Model.

(** NowMicros, env_posix.cc:721-726; [sec], [usec]: gettimeofday's time_t and
    suseconds_t, signed and converted to uint64_t *)
Definition now_micros (sec usec : Z) : N :=
  Z.to_N ((sec mod 2 ^ 64 * 1000000 + usec) mod 2 ^ 64).

(** MaxOpenFiles, env_posix.cc:770-785.  [limit]: g_open_read_only_file_limit;
    [rl]: what getrlimit delivers, [None] if it fails.  RLIM_INFINITY is 2^64-1;
    the quotient is converted to int (two's complement). *)
Definition max_open_files (limit : Z) (rl : option N) : Z :=
  if (0 <=? limit)%Z then limit
  else match rl with
       | None => 50%Z
       | Some cur => if N.eqb cur (2 ^ 64 - 1) then (2 ^ 31 - 1)%Z
                     else int_of_u32 (cur / 5 mod 2 ^ 32)
       end.

(** ** Configuration and Env::Default() *)
(** g_open_read_only_file_limit, g_mmap_limit (env_posix.cc:42-48, 64-bit), the
    flag env_initialized_ of SingletonEnv (kept only when asserts are on), and the
    environment of Env::Default() once it exists: its two limiters. *)
Record config := mk_config { g_open : Z; g_mmap : Z; g_flag : bool; g_env : option limits }.
Definition config0 : config := mk_config (-1) 1000 false None.
Inductive cfg_call := SetFDLimit (n : Z) | SetMMapLimit (n : Z) | Default (rl : option N).
(** One call: SetReadOnlyFDLimit and SetReadOnlyMMapLimit, env_posix.cc:886-894,
    with AssertEnvNotInitialized, 860-864; Env::Default(), 896-899, which
    constructs the environment the first time (SingletonEnv(), 844-853, and
    PosixEnv(), 788-792; the initialisation of a static happens once). *)
Definition cfg_step (dbg : bool) (c : config) (x : cfg_call) : outcome config :=
  match x with
  | SetFDLimit n => let! _ := assert_ dbg (negb (dbg && g_flag c)) in Ret (mk_config n (g_mmap c) (g_flag c) (g_env c))
  | SetMMapLimit n => let! _ := assert_ dbg (negb (dbg && g_flag c)) in Ret (mk_config (g_open c) n (g_flag c) (g_env c))
  | Default rl =>
      match g_env c with
      | Some _ => Ret c
      | None =>
          let o := max_open_files (g_open c) rl in
          Ret (mk_config o (g_mmap c) dbg (Some (mk_limits (g_mmap c) o)))
      end
  end.
Fixpoint cfg_run (dbg : bool) (c : config) (xs : list cfg_call) : outcome config :=
  match xs with [] => Ret c | x :: xs' => let! c := cfg_step dbg c x in cfg_run dbg c xs' end.
