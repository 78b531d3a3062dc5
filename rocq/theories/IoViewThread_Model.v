(** Threads that use one buffer at the same time, each through a read view and a write view
    of its own, without synchronisation.

    IoView_Model.v gives what a call of a view does to the buffer as a whole.  Here a call is
    the sequence of its accesses to single bytes, as in IoThread_Model.v, and a schedule
    interleaves the accesses of the threads.  The position of a view is in the view, so it is
    the thread's own.  A thread decides its next call by what its calls returned so far. *)
From Verif Require Import Base Io_Model IoView_Model IoThread_Model.

(** Model only, no counterpart in the code: a call on the thread's read view
    (wite/io/byte_read_buffer_view.hpp:49-123) or write view (wite/io/byte_write_buffer_view.hpp:48-100). *)
Inductive vop := VR (op : rop) | VW (op : wop).
(** Model only, no counterpart in the code: what a call returns. *)
Inductive vret := VRo (o : outcome rout) | VWo (o : outcome wout).
(** wite/io/byte_read_buffer_view.hpp:127-128 _get_pos, wite/io/byte_write_buffer_view.hpp:103-104 _put_pos. *)
Record places := Places { pl_get : N; pl_put : N }.

(** wite/io/byte_buffer_read.hpp:239-255 _recursive_try_read: the accesses; after a value that
    does not fit the rest sees an empty span at the end. *)
Fixpoint try_loads (ts : list vtype) (pos len : N) : list access :=
  match ts with
  | [] => []
  | t :: r => if len - pos <? value_size t then try_loads r len len
              else loads pos (N.to_nat (value_size t)) ++ try_loads r (pos + value_size t) len
  end.
(** wite/io/byte_buffer_read.hpp:239-255: the results made of the bytes loaded. *)
Fixpoint try_values (ev : env) (ts : list vtype) (pos len : N) (bs : list byte) : list (result value read_error) :=
  match ts with
  | [] => []
  | t :: r => if len - pos <? value_size t then RErr rd_insufficient_buffer :: try_values ev r len len bs
              else RVal (value_of_bytes ev t (takeN (value_size t) bs))
                   :: try_values ev r (pos + value_size t) len (dropN (value_size t) bs)
  end.
(** wite/io/byte_buffer_write.hpp:216-255 _recursive_try_write: the accesses; the first value that does not fit ends it. *)
Fixpoint try_stores (ev : env) (args : list warg) (pos len : N) : list access :=
  match args with
  | [] => []
  | a :: r => if len - pos <? arg_size a then []
              else arg_stores ev a pos ++ try_stores ev r (pos + arg_size a) len
  end.
(** wite/io/byte_buffer_write.hpp:216-255: the result. *)
Fixpoint try_written (args : list warg) (pos len : N) : result N write_error :=
  match args with
  | [] => RVal 0
  | a :: r =>
      if len - pos <? arg_size a then RErr wr_insufficient_buffer
      else match r with
           | [] => RVal (arg_written a)
           | _ :: _ => match try_written r (pos + arg_size a) len with
                       | RVal m => RVal (sz_add (arg_written a) m)
                       | RErr e => RErr e
                       end
           end
  end.

(** Model only, no counterpart in the code: std::advance at the end of a read (byte_read_buffer_view.hpp:77-123). *)
Definition got_to (len : N) (p : places) (n : Z) (o : rout) : places * vret :=
  match advance_signed len (pl_get p) n with
  | Ok q => (Places q (pl_put p), VRo (Ok o))
  | _ => (p, VRo UB)
  end.
(** Model only, no counterpart in the code: std::advance at the end of a write (byte_write_buffer_view.hpp:74-100). *)
Definition put_to (len : N) (p : places) (n : N) (o : wout) : places * vret :=
  match advance_signed len (pl_put p) (to_ptrdiff n) with
  | Ok q => (Places (pl_get p) q, VWo (Ok o))
  | _ => (p, VWo UB)
  end.

(** The accesses of a call on a read view of [len] bytes at [pl_get p], and, given the bytes it loaded, where it
    leaves the view and what it returns.  wite/io/byte_read_buffer_view.hpp:49-123, the members as marked. *)
Definition get_begin (ev : env) (op : rop) (len : N) (p : places) : list access * (list byte -> places * vret) :=
  let pos := pl_get p in
  match op with
  | RSeek q =>                                              (* 49-56 *)
      if len <? q then ([], fun _ => (p, VRo (Throw out_of_range)))
      else ([], fun _ => (Places q (pl_put p), VRo (Ok ROUnit)))
  | RTrySeek q =>                                           (* 60-67 *)
      if len <? q then ([], fun _ => (p, VRo (Ok (ROSeek (RErr rd_invalid_position_offset)))))
      else ([], fun _ => (Places q (pl_put p), VRo (Ok (ROSeek (RVal true)))))
  | RRead ts =>                                             (* 77-83 *)
      if len - pos <? byte_count_ty ts then ([], fun _ => (p, VRo (Throw out_of_range)))
      else (types_loads ts pos, fun bs => got_to len p (to_ptrdiff (byte_count_ty ts)) (ROVals (values_of ev ts bs)))
  | RReadRange t k =>                                       (* 85-91 *)
      if len - pos <? range_bytes (scalar_of t) (N.of_nat k) then ([], fun _ => (p, VRo (Throw out_of_range)))
      else (types_loads (repeat t k) pos, fun bs =>
              got_to len p (to_ptrdiff (range_bytes (scalar_of t) (N.of_nat k))) (ROVals (values_of ev (repeat t k) bs)))
  | RReadEndian n sg e =>                                   (* 93-99 *)
      if len - pos <? byte_count_ty [TEnc e n sg] then ([], fun _ => (p, VRo (Throw out_of_range)))
      else (types_loads [TEnc e n sg] pos, fun bs =>
              got_to len p (to_ptrdiff (value_size (TPlain (SInt n sg)))) (ROVals (values_of ev [TEnc e n sg] bs)))
  | RTryRead ts =>                                          (* 103-111 *)
      (try_loads ts pos len, fun bs =>
         got_to len p (Z.min (to_ptrdiff (byte_count_ty ts)) (Z.of_N len - Z.of_N pos)) (ROTry (try_values ev ts pos len bs)))
  | RTryReadRange t k =>                                    (* 113-123 *)
      if len - pos <? range_bytes (scalar_of t) (N.of_nat k)
      then ([], fun _ => (Places len (pl_put p), VRo (Ok (ROTryRange (RErr rd_insufficient_buffer)))))
      else (types_loads (repeat t k) pos, fun bs =>
              got_to len p (to_ptrdiff (range_bytes (scalar_of t) (N.of_nat k)))
                (ROTryRange (RVal (values_of ev (repeat t k) bs))))
  end.
(** The same for a write view.  wite/io/byte_write_buffer_view.hpp:48-100, the members as marked. *)
Definition put_begin (ev : env) (op : wop) (len : N) (p : places) : list access * (list byte -> places * vret) :=
  let pos := pl_put p in
  let write_ args :=
    if len - pos <? byte_count args then ([], fun _ => (p, VWo (Throw out_of_range)))
    else (args_stores ev args pos, fun _ => put_to len p (args_written args) (WOCount (args_written args))) in
  match op with
  | WSeek q =>                                              (* 48-55 *)
      if len <? q then ([], fun _ => (p, VWo (Throw out_of_range)))
      else ([], fun _ => (Places (pl_get p) q, VWo (Ok WOUnit)))
  | WTrySeek q =>                                           (* 59-66 *)
      if len <? q then ([], fun _ => (p, VWo (Ok (WOSeek (RErr wr_invalid_position_offset)))))
      else ([], fun _ => (Places (pl_get p) q, VWo (Ok (WOSeek (RVal true)))))
  | WWrite args => write_ args                              (* 74-80 *)
  | WWriteEndian n sg z e => write_ [AVal (TEnc e n sg) (VInt z)]   (* 82-88 *)
  | WTryWrite args =>                                       (* 92-100 *)
      (try_stores ev args pos len, fun _ =>
         match try_written args pos len with
         | RVal n => put_to len p n (WOTry (RVal n))
         | RErr e => (p, VWo (Ok (WOTry (RErr e))))
         end)
  end.
(** Model only, no counterpart in the code: either view. *)
Definition vop_begin (ev : env) (op : vop) (len : N) (p : places) : list access * (list byte -> places * vret) :=
  match op with VR o => get_begin ev o len p | VW o => put_begin ev o len p end.

(** Model only, no counterpart in the code: a program: the next call, by what the calls so far returned. *)
Definition program := list vret -> option vop.
(** Model only, no counterpart in the code: the call a thread is in. *)
Record vrunning := VRunning { vr_acts : list access; vr_got : list byte; vr_end : list byte -> places * vret }.
(** Model only, no counterpart in the code: a thread: its views, the call it is in, what its calls returned. *)
Record vthread := VThread { vt_places : places; vt_now : option vrunning; vt_rets : list vret }.
(** Model only, no counterpart in the code: the buffer, the threads, every access so far (newest first),
    and whether one was outside the buffer. *)
Record vsystem := VSystem {
  vs_buf : list byte; vs_thread : N -> vthread; vs_trace : list (N * access); vs_ub : bool }.

(** Model only, no counterpart in the code: the next step of a thread: it begins a call, makes one access, or returns. *)
Definition vt_step (ev : env) (prog : program) (buf : list byte) (t : vthread)
  : list byte * vthread * option access * bool :=
  match vt_now t with
  | None => match prog (vt_rets t) with
            | None => (buf, t, None, false)
            | Some op => let '(acts, fin) := vop_begin ev op (lenN buf) (vt_places t) in
                         (buf, VThread (vt_places t) (Some (VRunning acts [] fin)) (vt_rets t), None, false)
            end
  | Some r =>
      match vr_acts r with
      | [] => let '(p, x) := vr_end r (vr_got r) in (buf, VThread p None (vt_rets t ++ [x]), None, false)
      | ALoad i :: more =>
          match nth_error buf (N.to_nat i) with
          | Some b => (buf, VThread (vt_places t) (Some (VRunning more (vr_got r ++ [b]) (vr_end r))) (vt_rets t),
                       Some (ALoad i), false)
          | None => (buf, t, Some (ALoad i), true)
          end
      | AStore i b :: more =>
          if i <? lenN buf
          then (takeN i buf ++ b :: dropN (i + 1) buf,
                VThread (vt_places t) (Some (VRunning more (vr_got r) (vr_end r))) (vt_rets t), Some (AStore i b), false)
          else (buf, t, Some (AStore i b), true)
      end
  end.

(** Model only, no counterpart in the code: the scheduler lets thread [i] take its next step. *)
Definition vs_step (ev : env) (progs : N -> program) (st : vsystem) (i : N) : vsystem :=
  let '(buf, t, a, ub) := vt_step ev (progs i) (vs_buf st) (vs_thread st i) in
  VSystem buf (fun k => if k =? i then t else vs_thread st k)
          (match a with Some x => (i, x) :: vs_trace st | None => vs_trace st end) (vs_ub st || ub).
(** Model only, no counterpart in the code: a schedule. *)
Definition vs_run (ev : env) (progs : N -> program) (sched : list N) (st : vsystem) : vsystem :=
  fold_left (vs_step ev progs) sched st.
(** Model only, no counterpart in the code: the start of the threads; every thread makes its two views
    (wite/io/byte_read_buffer_view.hpp:40, wite/io/byte_write_buffer_view.hpp:39), which begin at the first byte. *)
Definition vs_start (buf : list byte) : vsystem :=
  VSystem buf (fun _ => VThread (Places 0 0) None []) [] false.
