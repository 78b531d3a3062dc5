(** Model of wite/io/byte_read_buffer_view.hpp and byte_write_buffer_view.hpp. *)
From Verif Require Import Base Io_Model.

(** C++ language (Standard). size_t to ptrdiff_t conversion (modular, C++20). *)
Definition to_ptrdiff (n : N) : Z :=
  if n <? 2 ^ 63 then Z.of_N n else (Z.of_N n - 2 ^ 64)%Z.

(** std::advance by a signed distance inside [0, size]. *)
Definition advance_signed (len pos : N) (d : Z) : outcome N :=
  let p := (Z.of_N pos + d)%Z in
  if (0 <=? p)%Z && (p <=? Z.of_N len)%Z then Ok (Z.to_N p) else UB.

(** ** byte_read_buffer_view *)

(** wite/io/byte_read_buffer_view.hpp:127-128: the viewed buffer and the get iterator, as an offset. *)
Record rview := RView { rv_data : list byte; rv_pos : N }.

(** wite/io/byte_read_buffer_view.hpp:40 *)
Definition rv_init (buf : list byte) : rview := RView buf 0.

(** Model only, no counterpart in the code: calls of wite/io/byte_read_buffer_view.hpp:49-123. *)
Inductive rop :=
| RSeek (p : N) | RTrySeek (p : N)
| RRead (ts : list vtype) | RReadRange (t : vtype) (k : nat)
| RReadEndian (n : nat) (sg : bool) (e : endian)
| RTryRead (ts : list vtype) | RTryReadRange (t : vtype) (k : nat).

(** Model only, no counterpart in the code: what a call returns. *)
Inductive rout :=
| ROUnit | ROSeek (r : result bool read_error) | ROVals (vs : list value)
| ROTry (rs : list (result value read_error)) | ROTryRange (r : result (list value) read_error).

(** std::span{_get_pos, _data.end()} *)
Definition rv_rest (st : rview) : list byte := dropN (rv_pos st) (rv_data st).

(** std::advance(_get_pos, n) *)
Definition rv_advance (st : rview) (n : N) : outcome rview :=
  let! p := advance_signed (lenN (rv_data st)) (rv_pos st) (to_ptrdiff n) in
  Ok (RView (rv_data st) p).

(** Model only, no counterpart in the code: a call that does not return leaves the view as it was. *)
Definition with_state {S A B} (st : S) (o : outcome A) (k : A -> outcome (S * B)) : S * outcome B :=
  match o with
  | Ok a => match k a with
            | Ok (st', b) => (st', Ok b)
            | Throw e => (st, Throw e) | UB => (st, UB) | Terminate => (st, Terminate) | Diverge => (st, Diverge)
            end
  | Throw e => (st, Throw e) | UB => (st, UB) | Terminate => (st, Terminate) | Diverge => (st, Diverge)
  end.

(** wite/io/byte_read_buffer_view.hpp:49-123, the members as marked. *)
Definition rv_step (ev : env) (st : rview) (op : rop) : rview * outcome rout :=
  let len := lenN (rv_data st) in
  match op with
  | RSeek p =>                                              (* 49-56 *)
      if len <? p then (st, Throw out_of_range) else (RView (rv_data st) p, Ok ROUnit)
  | RTrySeek p =>                                           (* 60-67 *)
      if len <? p then (st, Ok (ROSeek (RErr rd_invalid_position_offset)))
      else (RView (rv_data st) p, Ok (ROSeek (RVal true)))
  | RRead ts =>                                             (* 77-83 *)
      with_state st (read ev ts (rv_rest st)) (fun vs =>
        let! st' := rv_advance st (byte_count_ty ts) in Ok (st', ROVals vs))
  | RReadRange t k =>                                       (* 85-91 *)
      with_state st (read_range ev t k (rv_rest st)) (fun vs =>
        let! st' := rv_advance st (range_bytes (scalar_of t) (lenN vs)) in Ok (st', ROVals vs))
  | RReadEndian n sg e =>                                   (* 93-99 *)
      with_state st (read_with_endian ev n sg e (rv_rest st)) (fun vs =>
        let! st' := rv_advance st (value_size (TPlain (SInt n sg))) in Ok (st', ROVals vs))
  | RTryRead ts =>                                          (* 103-111 *)
      with_state st (try_read ev ts (rv_rest st)) (fun rs =>
        let dist := (Z.of_N len - Z.of_N (rv_pos st))%Z in
        let! p := advance_signed len (rv_pos st) (Z.min (to_ptrdiff (byte_count_ty ts)) dist) in
        Ok (RView (rv_data st) p, ROTry rs))
  | RTryReadRange t k =>                                    (* 113-123 *)
      with_state st (try_read_range ev t k (rv_rest st)) (fun r =>
        match r with
        | RVal vs => let! st' := rv_advance st (range_bytes (scalar_of t) (lenN vs)) in Ok (st', ROTryRange r)
        | RErr _ => Ok (RView (rv_data st) len, ROTryRange r)
        end)
  end.

(** wite/io/byte_read_buffer_view.hpp:69-71 unchecked_seek: std::next from the start by the
    position converted to ptrdiff_t *)
Definition rv_unchecked_seek (st : rview) (p : N) : outcome rview :=
  let! q := advance_signed (lenN (rv_data st)) 0 (to_ptrdiff p) in Ok (RView (rv_data st) q).

(** Model only, no counterpart in the code. A history of calls; the caller may catch exceptions and go on. *)
Fixpoint rv_run (ev : env) (st : rview) (ops : list rop) : rview * list (outcome rout) :=
  match ops with
  | [] => (st, [])
  | op :: r =>
      let '(st', o) := rv_step ev st op in
      let '(st'', os) := rv_run ev st' r in (st'', o :: os)
  end.

(** wite/io/byte_read_buffer_view.hpp:44-47 constructor with offset and 141-151 try_make_byte_read_buffer_view *)
Definition rv_make (buf : list byte) (offset : N) : outcome rview :=
  if lenN buf <? offset then Throw out_of_range else Ok (RView buf offset).
(** wite/io/byte_read_buffer_view.hpp:141-151 try_make_byte_read_buffer_view. *)
Definition rv_try_make (buf : list byte) (offset : N) : outcome (result rview read_error) :=
  if lenN buf <? offset then Ok (RErr rd_invalid_position_offset) else Ok (RVal (RView buf offset)).

(** ** byte_write_buffer_view *)

(** wite/io/byte_write_buffer_view.hpp:103-104 *)
Record wview := WView { wv_data : list byte; wv_pos : N }.
(** wite/io/byte_write_buffer_view.hpp:39 *)
Definition wv_init (buf : list byte) : wview := WView buf 0.
(** wite/io/byte_write_buffer_view.hpp:43-46 constructor with an offset *)
Definition wv_make (buf : list byte) (offset : N) : outcome wview :=
  if lenN buf <? offset then Throw out_of_range else Ok (WView buf offset).

(** Model only, no counterpart in the code: calls of wite/io/byte_write_buffer_view.hpp:48-100. *)
Inductive wop :=
| WSeek (p : N) | WTrySeek (p : N)
| WWrite (args : list warg) | WWriteEndian (n : nat) (sg : bool) (z : Z) (e : endian)
| WTryWrite (args : list warg).

(** Model only, no counterpart in the code: what a call returns. *)
Inductive wout := WOUnit | WOSeek (r : result bool write_error) | WOCount (n : N)
                | WOTry (r : result N write_error).

(** wite/io/byte_write_buffer_view.hpp:74-100: std::advance(_put_pos, n) after a write. *)
Definition wv_finish (pos : N) (r : wres N) (k : N -> wout) : wview * outcome wout :=
  let '(buf', o) := r in
  match o with
  | Ok n => match advance_signed (lenN buf') pos (to_ptrdiff n) with
            | Ok p => (WView buf' p, Ok (k n))
            | _ => (WView buf' pos, UB)
            end
  | Throw e => (WView buf' pos, Throw e) | UB => (WView buf' pos, UB)
  | Terminate => (WView buf' pos, Terminate) | Diverge => (WView buf' pos, Diverge)
  end.

(** wite/io/byte_write_buffer_view.hpp:48-100, the members as marked. *)
Definition wv_step (ev : env) (st : wview) (op : wop) : wview * outcome wout :=
  let len := lenN (wv_data st) in
  match op with
  | WSeek p =>                                              (* 48-55 *)
      if len <? p then (st, Throw out_of_range) else (WView (wv_data st) p, Ok WOUnit)
  | WTrySeek p =>                                           (* 59-66 *)
      if len <? p then (st, Ok (WOSeek (RErr wr_invalid_position_offset)))
      else (WView (wv_data st) p, Ok (WOSeek (RVal true)))
  | WWrite args =>                                          (* 74-80 *)
      wv_finish (wv_pos st) (on_span (wv_data st) (wv_pos st) (write ev args)) WOCount
  | WWriteEndian n sg z e =>                                (* 82-88 *)
      wv_finish (wv_pos st) (on_span (wv_data st) (wv_pos st) (write_with_endian ev n sg z e)) WOCount
  | WTryWrite args =>                                       (* 92-100 *)
      let '(buf', o) := on_span (wv_data st) (wv_pos st) (try_write ev args) in
      match o with
      | Ok (RVal n) => wv_finish (wv_pos st) (buf', Ok n) (fun n => WOTry (RVal n))
      | Ok (RErr e) => (WView buf' (wv_pos st), Ok (WOTry (RErr e)))
      | Throw e => (WView buf' (wv_pos st), Terminate) | UB => (WView buf' (wv_pos st), UB)
      | Terminate => (WView buf' (wv_pos st), Terminate) | Diverge => (WView buf' (wv_pos st), Diverge)
      end
  end.

(** Model only, no counterpart in the code: a history of calls; the caller may catch exceptions and go on. *)
Fixpoint wv_run (ev : env) (st : wview) (ops : list wop) : wview * list (outcome wout) :=
  match ops with
  | [] => (st, [])
  | op :: r =>
      let '(st', o) := wv_step ev st op in
      let '(st'', os) := wv_run ev st' r in (st'', o :: os)
  end.

(** wite/io/byte_write_buffer_view.hpp:68 unchecked_seek *)
Definition wv_unchecked_seek (st : wview) (p : N) : outcome wview :=
  let! q := advance_signed (lenN (wv_data st)) 0 (to_ptrdiff p) in Ok (WView (wv_data st) q).

(** ** Several views of one buffer *)

(** Model only, no counterpart in the code: a buffer and the positions of any number of read
    and write views that refer to it (byte_read_buffer_view.hpp:127-128 and
    byte_write_buffer_view.hpp:103-104 hold references). *)
Record shared := Shared { sh_buf : list byte; sh_r : N -> N; sh_w : N -> N }.
(** Model only, no counterpart in the code: calls on read view [i] or write view [i]. *)
Inductive sop := SR (i : N) (op : rop) | SW (i : N) (op : wop) | SRJump (i p : N) | SWJump (i p : N).
(** Model only, no counterpart in the code: what a call returns. *)
Inductive sout := SRo (o : outcome rout) | SWo (o : outcome wout) | SJo (o : outcome unit).
(** Model only, no counterpart in the code: one position replaced. *)
Definition put_pos (f : N -> N) (i p : N) : N -> N := fun k => if k =? i then p else f k.
(** Model only, no counterpart in the code: one call. *)
Definition sh_step (ev : env) (st : shared) (o : sop) : shared * sout :=
  match o with
  | SR i op => let '(v, out) := rv_step ev (RView (sh_buf st) (sh_r st i)) op in
               (Shared (rv_data v) (put_pos (sh_r st) i (rv_pos v)) (sh_w st), SRo out)
  | SW i op => let '(v, out) := wv_step ev (WView (sh_buf st) (sh_w st i)) op in
               (Shared (wv_data v) (sh_r st) (put_pos (sh_w st) i (wv_pos v)), SWo out)
  | SRJump i p => match rv_unchecked_seek (RView (sh_buf st) (sh_r st i)) p with
                  | Ok v => (Shared (rv_data v) (put_pos (sh_r st) i (rv_pos v)) (sh_w st), SJo (Ok tt))
                  | _ => (st, SJo UB)
                  end
  | SWJump i p => match wv_unchecked_seek (WView (sh_buf st) (sh_w st i)) p with
                  | Ok v => (Shared (wv_data v) (sh_r st) (put_pos (sh_w st) i (wv_pos v)), SJo (Ok tt))
                  | _ => (st, SJo UB)
                  end
  end.
(** Model only, no counterpart in the code: a history of calls. *)
Fixpoint sh_run (ev : env) (st : shared) (ops : list sop) : shared * list sout :=
  match ops with
  | [] => (st, [])
  | o :: r => let '(st', x) := sh_step ev st o in
              let '(st'', xs) := sh_run ev st' r in (st'', x :: xs)
  end.
