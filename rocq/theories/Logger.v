(** Logger.v -- model of PosixLogger::Logv, util/posix_logger.h:31-118.

    The arguments stand for what the system calls before the loop deliver: the
    broken-down time of gettimeofday/localtime_r, the microseconds, and the text
    of the thread id.  What the two vsnprintf calls find when they format the
    message is a parameter for each of them: normally it is the same text twice,
    but the arguments may point at data another thread is changing.

    Not modelled: failure of operator new, fwrite and fflush (Logv ignores their
    results, lines 105-106). *)
From Coq Require Import List NArith ZArith Lia Bool.
From Verif Require Import Outcome Logging.
Import ListNotations.
Local Open Scope Z_scope.
Local Open Scope outcome_scope.

Definition INT_MAX : Z := 2 ^ 31 - 1.
Definition INT_MIN : Z := - 2 ^ 31.
(** signed int arithmetic: overflow is undefined *)
Definition int_ (x : Z) : outcome Z := if (INT_MIN <=? x) && (x <=? INT_MAX) then Ret x else UB.
(** conversion of an int to size_t *)
Definition size_t_of (x : Z) : Z := x mod 2 ^ 64.

(** libc: what printf produces for "%0<w>d" *)
Definition pad0 (w : nat) (ds : list N) : list N := repeat 48%N (w - length ds) ++ ds.
Definition fmt_0d (w : nat) (n : Z) : list N :=
  if n <? 0 then 45%N :: pad0 (w - 1) (print_llu (Z.to_N (- n))) else pad0 w (print_llu (Z.to_N n)).
(** libc: what printf produces for "%s" of c_str() *)
Fixpoint until_nul (l : list N) : list N :=
  match l with [] => [] | b :: l' => if N.eqb b 0 then [] else b :: until_nul l' end.

(** struct tm *)
Record tm := mk_tm { tm_year : Z; tm_mon : Z; tm_mday : Z; tm_hour : Z; tm_min : Z; tm_sec : Z }.

(** posix_logger.h:40-46: the thread id, cut to 32 characters *)
Definition kMaxThreadIdSize : nat := 32.
Definition thread_id (tid : list N) : list N :=
  if Nat.ltb kMaxThreadIdSize (length tid) then firstn kMaxThreadIdSize tid else tid.

(** posix_logger.h:64-69: the text of the header,
    "%04d/%02d/%02d-%02d:%02d:%02d.%06d %s " *)
Definition header_text (t : tm) (usec : Z) (tid : list N) : outcome (list N) :=
  let! y := int_ (tm_year t + 1900) in
  let! mo := int_ (tm_mon t + 1) in
  Ret (fmt_0d 4 y ++ [47%N] ++ fmt_0d 2 mo ++ [47%N] ++ fmt_0d 2 (tm_mday t) ++ [45%N] ++
       fmt_0d 2 (tm_hour t) ++ [58%N] ++ fmt_0d 2 (tm_min t) ++ [58%N] ++ fmt_0d 2 (tm_sec t) ++ [46%N] ++
       fmt_0d 6 usec ++ [32%N] ++ until_nul (thread_id tid) ++ [32%N]).

(** A char array; [None] is an indeterminate element. *)
Definition cbuf := list (option N).
Definition write_at (b : cbuf) (off : Z) (bs : list N) : outcome cbuf :=
  if (0 <=? off) && (off + Z.of_nat (length bs) <=? Z.of_nat (length b))
  then Ret (firstn (Z.to_nat off) b ++ map Some bs ++ skipn (Z.to_nat off + length bs) b)
  else UB.
Definition read_at (b : cbuf) (off : Z) : outcome N :=
  if off <? 0 then UB else
  match nth_error b (Z.to_nat off) with Some (Some x) => Ret x | _ => UB end.
Fixpoint read_all (b : cbuf) : outcome (list N) :=
  match b with
  | [] => Ret []
  | Some x :: b' => let! l := read_all b' in Ret (x :: l)
  | None :: _ => UB
  end.

(** libc: (v)snprintf(buffer + off, size, ...) when the complete text is [text]:
    at most size-1 characters and a NUL are stored *)
Definition snprintf_at (b : cbuf) (off size : Z) (text : list N) : outcome cbuf :=
  if size =? 0 then Ret b
  else write_at b off (firstn (Z.to_nat (size - 1)) text ++ [0%N]).

(** libc: what a vsnprintf call comes upon: a complete text, or an encoding error
    after having stored some characters. *)
Inductive vsres := VsText (t : list N) | VsFail (junk : list N).
(** C11 7.21.6.12 / POSIX: the length of the complete text, negative on an error; a
    text longer than INT_MAX is an error (EOVERFLOW) *)
Definition vsnprintf_at (b : cbuf) (off size : Z) (r : vsres) : outcome (cbuf * Z) :=
  match r with
  | VsText t =>
      let! b := snprintf_at b off size t in
      Ret (b, if Z.of_nat (length t) <=? INT_MAX then Z.of_nat (length t) else -1)
  | VsFail junk => let! b := snprintf_at b off size junk in Ret (b, -1)
  end.

Inductive log_event := LNew (size : Z) | LFwrite (data : list N) | LFflush | LDelete.

(** posix_logger.h:64-84: both prints into a buffer; the result is buffer_offset *)
Definition print_both (dbg : bool) (hdr : list N) (buffer : cbuf) (buffer_size : Z) (r : vsres) : outcome (cbuf * Z) :=
  let! buffer := snprintf_at buffer 0 (size_t_of buffer_size) hdr in
  let buffer_offset := Z.of_nat (length hdr) in
  let! _ := assert_ dbg (buffer_offset <=? 28 + Z.of_nat kMaxThreadIdSize) in
  let! _ := assert_ dbg (buffer_offset <? buffer_size) in
  let! room := int_ (buffer_size - buffer_offset) in
  let! (buffer, n) := vsnprintf_at buffer buffer_offset (size_t_of room) r in
  let! buffer_offset := int_ (buffer_offset + n) in
  Ret (buffer, buffer_offset).

(** posix_logger.h:99-106: the newline, fwrite, fflush *)
Definition put_line (dbg : bool) (buffer : cbuf) (buffer_size buffer_offset : Z) : outcome (list log_event) :=
  let! c := read_at buffer (buffer_offset - 1) in
  let! (buffer, buffer_offset) :=
    (if N.eqb c 10 then Ret (buffer, buffer_offset)
     else let! buffer := write_at buffer buffer_offset [10%N] in Ret (buffer, buffer_offset + 1)) in
  let! _ := assert_ dbg (buffer_offset <=? buffer_size) in
  let! data := (if (0 <=? buffer_offset) && (buffer_offset <=? Z.of_nat (length buffer))
                then read_all (firstn (Z.to_nat buffer_offset) buffer) else UB) in
  Ret [LFwrite data; LFflush].

(** posix_logger.h:31-113; [r1], [r2]: the message as the two iterations see it;
    [stack]: what happens to be in stack_buffer. *)
Definition kStackBufferSize : Z := 512.
Definition Logv (dbg : bool) (stack : cbuf) (t : tm) (usec : Z) (tid : list N) (r1 r2 : vsres) : outcome (list log_event) :=
  let! hdr := header_text t usec tid in
  let! (buffer, buffer_offset) := print_both dbg hdr stack kStackBufferSize r1 in
  if buffer_offset >=? kStackBufferSize - 1 then
    let! dynamic_buffer_size := int_ (buffer_offset + 2) in
    let! dyn := (if dynamic_buffer_size <? 0 then UB else Ret (repeat None (Z.to_nat dynamic_buffer_size))) in
    let! (buffer, buffer_offset) := print_both dbg hdr dyn dynamic_buffer_size r2 in
    let! buffer_offset :=
      (if buffer_offset >=? dynamic_buffer_size - 1
       then let! _ := assert_ dbg false in Ret (dynamic_buffer_size - 1)
       else Ret buffer_offset) in
    let! evs := put_line dbg buffer dynamic_buffer_size buffer_offset in
    Ret ([LNew dynamic_buffer_size] ++ evs ++ [LDelete])
  else
    put_line dbg buffer kStackBufferSize buffer_offset.
