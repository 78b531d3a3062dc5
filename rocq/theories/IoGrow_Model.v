(** Model of read and write views of a std::vector whose length changes while they are in use. *)
From Coq Require Import List. Import ListNotations.
From Verif Require Import Base Io_Model IoView_Model.
Local Open Scope N_scope.

Section Grow.
(** Standard library: the new capacity of a vector of this capacity that must hold this many bytes. *)
Variable grow : N -> N -> N.

(** Model only, no counterpart in the code: a std::vector (bytes and capacity) and the iterators of the views that
    refer to it (wite/io/byte_read_buffer_view.hpp:127-128, wite/io/byte_write_buffer_view.hpp:103-104), as offsets;
    [None]: an invalidated iterator. *)
Record viewed := Viewed { vw_buf : list byte; vw_cap : N; vw_r : N -> option N; vw_w : N -> option N }.

(** C++ language (Standard): calls on the vector.  [VSet k b] is v[k] = b; [VShrink r] is shrink_to_fit, which may or
    may not reallocate. *)
Inductive vecop :=
| VPush (b : byte) | VPop | VResize (n : N) | VReserve (n : N) | VShrink (r : bool) | VClear | VAssign (bs : list byte) | VSet (k : N) (b : byte).

(** Model only, no counterpart in the code: every iterator invalidated. *)
Definition none_left (f : N -> option N) : N -> option N := fun _ => None.
(** C++ language (Standard), [vector.modifiers]: iterators at or after the place of an insertion or erasure are invalidated. *)
Definition left_before (m : N) (f : N -> option N) : N -> option N :=
  fun i => match f i with Some p => if p <? m then Some p else None | None => None end.

(** C++ language (Standard): the bytes of the vector become [bs], which agree with the old ones up to the shorter length. *)
Definition set_length (st : viewed) (bs : list byte) : viewed :=
  if lenN bs =? lenN (vw_buf st) then st
  else if vw_cap st <? lenN bs then Viewed bs (grow (vw_cap st) (lenN bs)) (none_left (vw_r st)) (none_left (vw_w st))
  else let m := N.min (lenN bs) (lenN (vw_buf st)) in Viewed bs (vw_cap st) (left_before m (vw_r st)) (left_before m (vw_w st)).

(** C++ language (Standard): one call on the vector. *)
Definition vec_step (st : viewed) (o : vecop) : viewed * outcome unit :=
  let buf := vw_buf st in
  match o with
  | VPush b => (set_length st (buf ++ [b]), Ok tt)
  | VPop => match buf with [] => (st, UB) | _ => (set_length st (removelast buf), Ok tt) end
  | VResize n => (set_length st (takeN n buf ++ repeat x00 (N.to_nat (n - lenN buf))), Ok tt)
  | VReserve n => if vw_cap st <? n then (Viewed buf (grow (vw_cap st) n) (none_left (vw_r st)) (none_left (vw_w st)), Ok tt) else (st, Ok tt)
  | VShrink true => (Viewed buf (lenN buf) (none_left (vw_r st)) (none_left (vw_w st)), Ok tt)
  | VShrink false => (st, Ok tt)
  | VClear => (Viewed [] (vw_cap st) (none_left (vw_r st)) (none_left (vw_w st)), Ok tt)
  | VAssign bs => (Viewed bs (if vw_cap st <? lenN bs then grow (vw_cap st) (lenN bs) else vw_cap st)
                     (none_left (vw_r st)) (none_left (vw_w st)), Ok tt)
  | VSet k b => if k <? lenN buf then (Viewed (takeN k buf ++ [b] ++ dropN (k + 1) buf) (vw_cap st) (vw_r st) (vw_w st), Ok tt)
                else (st, UB)
  end.

(** Model only, no counterpart in the code: calls on the vector, on read view [i] and on write view [i]. *)
Inductive gop := GV (o : vecop) | GR (i : N) (o : rop) | GW (i : N) (o : wop).
(** Model only, no counterpart in the code: what a call returns. *)
Inductive gout := GVo (x : outcome unit) | GRo (x : outcome rout) | GWo (x : outcome wout).
(** Model only, no counterpart in the code: one iterator replaced. *)
Definition set_pos (f : N -> option N) (i : N) (p : option N) : N -> option N := fun k => if k =? i then p else f k.

(** wite/io/byte_read_buffer_view.hpp:49-123: with an invalidated iterator only seek and try_seek, which do not use it, are defined. *)
Definition g_read (ev : env) (st : viewed) (i : N) (o : rop) : viewed * outcome rout :=
  match vw_r st i with
  | Some p => let '(v, x) := rv_step ev (RView (vw_buf st) p) o in
              (Viewed (vw_buf st) (vw_cap st) (set_pos (vw_r st) i (Some (rv_pos v))) (vw_w st), x)
  | None =>
      match o with
      | RSeek q | RTrySeek q =>
          let '(v, x) := rv_step ev (RView (vw_buf st) 0) o in
          (Viewed (vw_buf st) (vw_cap st) (set_pos (vw_r st) i (if q <=? lenN (vw_buf st) then Some (rv_pos v) else None)) (vw_w st), x)
      | _ => (st, UB)
      end
  end.
(** wite/io/byte_write_buffer_view.hpp:48-100, likewise. *)
Definition g_write (ev : env) (st : viewed) (i : N) (o : wop) : viewed * outcome wout :=
  match vw_w st i with
  | Some p => let '(v, x) := wv_step ev (WView (vw_buf st) p) o in
              (Viewed (wv_data v) (vw_cap st) (vw_r st) (set_pos (vw_w st) i (Some (wv_pos v))), x)
  | None =>
      match o with
      | WSeek q | WTrySeek q =>
          let '(v, x) := wv_step ev (WView (vw_buf st) 0) o in
          (Viewed (vw_buf st) (vw_cap st) (vw_r st) (set_pos (vw_w st) i (if q <=? lenN (vw_buf st) then Some (wv_pos v) else None)), x)
      | _ => (st, UB)
      end
  end.

(** Model only, no counterpart in the code: one call. *)
Definition g_step (ev : env) (st : viewed) (o : gop) : viewed * gout :=
  match o with
  | GV o => let '(st', x) := vec_step st o in (st', GVo x)
  | GR i o => let '(st', x) := g_read ev st i o in (st', GRo x)
  | GW i o => let '(st', x) := g_write ev st i o in (st', GWo x)
  end.
(** Model only, no counterpart in the code: a history of calls. *)
Fixpoint g_run (ev : env) (st : viewed) (ops : list gop) : viewed * list gout :=
  match ops with
  | [] => (st, [])
  | o :: r => let '(st', x) := g_step ev st o in
              let '(st'', xs) := g_run ev st' r in (st'', x :: xs)
  end.
End Grow.
