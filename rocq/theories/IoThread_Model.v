(** Threads that use one buffer at the same time through write_at, read_at and the
    non-throwing calls for one value, without synchronisation.

    Io_Model.v gives what a call does to the buffer as a whole.  Here a call is the
    sequence of its accesses to single bytes, and the accesses of several threads are
    interleaved by a schedule.  The size of the buffer does not change and reading it
    is not an access to a byte.  The values written are the thread's own. *)
From Verif Require Import Base Io_Model.

(** C++ language (Standard): an access to one byte of the buffer. *)
Inductive access := ALoad (i : N) | AStore (i : N) (b : byte).

(** std::copy_n into the buffer, as used in wite/io/byte_buffer_write.hpp:37-49. *)
Fixpoint stores (pos : N) (bs : list byte) : list access :=
  match bs with [] => [] | b :: r => AStore pos b :: stores (pos + 1) r end.
(** std::copy_n out of the buffer, as used in wite/io/byte_buffer_read.hpp:37-52. *)
Fixpoint loads (pos : N) (n : nat) : list access :=
  match n with O => [] | S n' => ALoad pos :: loads (pos + 1) n' end.

(** wite/io/byte_buffer_write.hpp:51-68 _write_single_range_value. *)
Fixpoint range_stores (ev : env) (s : scalar) (vs : list value) (pos : N) : list access :=
  match vs with
  | [] => []
  | v :: r => stores pos (bytes_of_value ev (TPlain s) v) ++ range_stores ev s r (pos + value_size (TPlain s))
  end.
(** wite/io/byte_buffer_write.hpp:51-68: the bytes counted. *)
Fixpoint range_written (s : scalar) (vs : list value) (done : N) : N :=
  match vs with [] => done | _ :: r => range_written s r (sz_add done (value_size (TPlain s))) end.
(** wite/io/byte_buffer_write.hpp:74-94 unchecked_write: its accesses and the number it returns. *)
Definition arg_stores (ev : env) (a : warg) (pos : N) : list access :=
  match a with
  | AVal t v => stores pos (bytes_of_value ev t v)
  | ARange s vs => range_stores ev s vs pos
  end.
(** wite/io/byte_buffer_write.hpp:74-94. *)
Definition arg_written (a : warg) : N :=
  match a with AVal t _ => value_size t | ARange s vs => range_written s vs 0 end.
(** wite/io/byte_buffer_write.hpp:100-115 _recursive_unsafe_write. *)
Fixpoint args_stores (ev : env) (args : list warg) (pos : N) : list access :=
  match args with
  | [] => []
  | a :: r => arg_stores ev a pos ++ args_stores ev r (pos + arg_size a)
  end.
(** wite/io/byte_buffer_write.hpp:100-115: the number returned. *)
Fixpoint args_written (args : list warg) : N :=
  match args with
  | [] => 0
  | a :: r => match r with [] => arg_written a | _ :: _ => sz_add (arg_written a) (args_written r) end
  end.

(** wite/io/byte_buffer_read.hpp:58-70 _recursive_read. *)
Fixpoint types_loads (ts : list vtype) (pos : N) : list access :=
  match ts with
  | [] => []
  | t :: r => loads pos (N.to_nat (value_size t)) ++ types_loads r (pos + value_size t)
  end.
(** wite/io/byte_buffer_read.hpp:58-70: the values made of the bytes loaded. *)
Fixpoint values_of (ev : env) (ts : list vtype) (bs : list byte) : list value :=
  match ts with
  | [] => []
  | t :: r => value_of_bytes ev t (takeN (value_size t) bs) :: values_of ev r (dropN (value_size t) bs)
  end.

(** Model only, no counterpart in the code: a call a thread makes on the buffer
    (wite/io/byte_buffer_write.hpp:193-210, 281-294, wite/io/byte_buffer_read.hpp:110-121, 189-217). *)
Inductive call :=
| CWriteAt (args : list warg) (pos : N)      (* write_at(pos, buffer, args...) *)
| CReadAt (ts : list vtype) (pos : N)        (* read_at<ts...>(pos, buffer) *)
| CTryWriteAt (a : warg) (pos : N)           (* try_write_at(pos, buffer, a) *)
| CTryReadAt (t : vtype) (pos : N).          (* try_read_at<t>(pos, buffer) *)

(** Model only, no counterpart in the code: what a call returns. *)
Inductive ret :=
| RetWrite (o : outcome N) | RetRead (o : outcome (list value))
| RetTryWrite (o : outcome (result N write_error)) | RetTryRead (o : outcome (result value read_error)).

(** The accesses of a call to a buffer of [len] bytes, and what it returns, given the bytes it loaded.
    wite/io/byte_buffer_write.hpp:281-294 write_at, wite/io/byte_buffer_read.hpp:110-121 read_at,
    wite/io/byte_buffer_write.hpp:193-210 try_write_at, wite/io/byte_buffer_read.hpp:189-217 try_read_at. *)
Definition call_begin (ev : env) (c : call) (len : N) : list access * (list byte -> ret) :=
  match c with
  | CWriteAt args pos =>
      let end_pos := sz_add pos (byte_count args) in
      if end_pos <? pos then ([], fun _ => RetWrite (Throw invalid_argument))
      else if len <? end_pos then ([], fun _ => RetWrite (Throw out_of_range))
      else (args_stores ev args pos, fun _ => RetWrite (Ok (sz_add pos (args_written args))))
  | CReadAt ts pos =>
      if sz_add pos (byte_count_ty ts) <? pos then ([], fun _ => RetRead (Throw invalid_argument))
      else if len <? pos then ([], fun _ => RetRead (Throw out_of_range))
      else if len - pos <? byte_count_ty ts then ([], fun _ => RetRead (Throw out_of_range))
      else (types_loads ts pos, fun bs => RetRead (Ok (values_of ev ts bs)))
  | CTryWriteAt a pos =>
      if sz_add pos (arg_size a) <? pos then ([], fun _ => RetTryWrite (Ok (RErr wr_invalid_position_offset)))
      else if len <=? pos then ([], fun _ => RetTryWrite (Ok (RErr wr_insufficient_buffer)))
      else if len - pos <? arg_size a then ([], fun _ => RetTryWrite (Ok (RErr wr_insufficient_buffer)))
      else (arg_stores ev a pos, fun _ => RetTryWrite (Ok (RVal (sz_add pos (arg_written a)))))
  | CTryReadAt t pos =>
      if sz_add pos (value_size t) <? pos then ([], fun _ => RetTryRead (Ok (RErr rd_invalid_position_offset)))
      else if len <=? pos then ([], fun _ => RetTryRead (Ok (RErr rd_insufficient_buffer)))
      else if len - pos <? value_size t then ([], fun _ => RetTryRead (Ok (RErr rd_insufficient_buffer)))
      else (loads pos (N.to_nat (value_size t)), fun bs => RetTryRead (Ok (RVal (value_of_bytes ev t bs))))
  end.

(** Model only, no counterpart in the code: the call a thread is in: the accesses to come, the bytes
    loaded so far, what it will return. *)
Record running := Running { ru_acts : list access; ru_got : list byte; ru_end : list byte -> ret }.
(** Model only, no counterpart in the code: a thread: the calls to come, the call it is in, what its calls returned. *)
Record thread := Thread { th_calls : list call; th_now : option running; th_rets : list ret }.
(** Model only, no counterpart in the code: the buffer, the threads, every access so far (newest first),
    and whether one was outside the buffer. *)
Record system := System {
  sys_buf : list byte; sys_thread : N -> thread; sys_trace : list (N * access); sys_ub : bool }.

(** Model only, no counterpart in the code: the next step of a thread: it begins a call, makes one access, or returns. *)
Definition th_step (ev : env) (buf : list byte) (t : thread) : list byte * thread * option access * bool :=
  match th_now t with
  | None => match th_calls t with
            | [] => (buf, t, None, false)
            | c :: cs => let '(acts, fin) := call_begin ev c (lenN buf) in
                         (buf, Thread cs (Some (Running acts [] fin)) (th_rets t), None, false)
            end
  | Some r =>
      match ru_acts r with
      | [] => (buf, Thread (th_calls t) None (th_rets t ++ [ru_end r (ru_got r)]), None, false)
      | ALoad i :: more =>
          match nth_error buf (N.to_nat i) with
          | Some b => (buf, Thread (th_calls t) (Some (Running more (ru_got r ++ [b]) (ru_end r))) (th_rets t),
                       Some (ALoad i), false)
          | None => (buf, t, Some (ALoad i), true)
          end
      | AStore i b :: more =>
          if i <? lenN buf
          then (takeN i buf ++ b :: dropN (i + 1) buf,
                Thread (th_calls t) (Some (Running more (ru_got r) (ru_end r))) (th_rets t), Some (AStore i b), false)
          else (buf, t, Some (AStore i b), true)
      end
  end.

(** Model only, no counterpart in the code: the scheduler lets thread [i] take its next step. *)
Definition sys_step (ev : env) (st : system) (i : N) : system :=
  let '(buf, t, a, ub) := th_step ev (sys_buf st) (sys_thread st i) in
  System buf (fun k => if k =? i then t else sys_thread st k)
         (match a with Some x => (i, x) :: sys_trace st | None => sys_trace st end) (sys_ub st || ub).
(** Model only, no counterpart in the code: a schedule. *)
Definition sys_run (ev : env) (sched : list N) (st : system) : system := fold_left (sys_step ev) sched st.
(** Model only, no counterpart in the code: the start of the threads. *)
Definition sys_start (buf : list byte) (progs : N -> list call) : system :=
  System buf (fun i => Thread (progs i) None []) [] false.
