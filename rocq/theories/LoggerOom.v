(** LoggerOom.v -- PosixLogger::Logv, util/posix_logger.h:31-118, when memory runs out.

    As Logger.v.  Logv asks for memory at three places: the stream for the thread id
    (line 42), the string made of it (line 43), the second buffer (line 61).
    Formatted output catches exceptions of the stream's buffer and only marks the
    stream as bad ([ostream.formatted.reqmts]; exceptions() is empty here), so line 42
    throws nothing: what did not go in is missing from the thread id.  A
    std::string of up to 15 characters (libstdc++) needs no memory. *)
From Coq Require Import List Arith NArith ZArith Bool.
From Verif Require Import Outcome Logging Logger.
Import ListNotations.
Local Open Scope Z_scope.
Local Open Scope outcome_scope.

(** What memory there is: [m_id]: number of characters of the thread id that get into
    the stream ([None]: all); [m_str], [m_buf]: whether line 43, line 61 get theirs. *)
Record logmem := mk_logmem { m_id : option nat; m_str : bool; m_buf : bool }.
Inductive lxend := LReturned (evs : list log_event) | LThrew.

(** posix_logger.h:41-42 *)
Definition id_stream (m : option nat) (tid : list N) : list N := match m with None => tid | Some n => firstn n tid end.

(** posix_logger.h:31-113 *)
Definition Logv_x (dbg : bool) (mem : logmem) (stack : cbuf) (t : tm) (usec : Z) (tid : list N) (r1 r2 : vsres) : outcome lxend :=
  let id := id_stream (m_id mem) tid in
  if negb (m_str mem) && Nat.ltb 15 (length id) then Ret LThrew
  else
    let! hdr := header_text t usec id in
    let! (buffer, buffer_offset) := print_both dbg hdr stack kStackBufferSize r1 in
    if buffer_offset >=? kStackBufferSize - 1 then
      let! dynamic_buffer_size := int_ (buffer_offset + 2) in
      let! dyn := (if dynamic_buffer_size <? 0 then UB else Ret (repeat None (Z.to_nat dynamic_buffer_size))) in
      if negb (m_buf mem) then Ret LThrew
      else
        let! (buffer, buffer_offset) := print_both dbg hdr dyn dynamic_buffer_size r2 in
        let! buffer_offset :=
          (if buffer_offset >=? dynamic_buffer_size - 1
           then let! _ := assert_ dbg false in Ret (dynamic_buffer_size - 1)
           else Ret buffer_offset) in
        let! evs := put_line dbg buffer dynamic_buffer_size buffer_offset in
        Ret (LReturned ([LNew dynamic_buffer_size] ++ evs ++ [LDelete]))
    else
      let! evs := put_line dbg buffer kStackBufferSize buffer_offset in Ret (LReturned evs).
