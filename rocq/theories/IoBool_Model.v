(** Model of reading values of types not all of whose object representations are values, such as bool, which
    Io_Model.v leaves out by taking any bytes as a value. *)
From Coq Require Import List. Import ListNotations.
From Verif Require Import Base Io_Model.
Local Open Scope N_scope.

(** wite/io/concepts.hpp:48-55 (is_buffer_readable): a type that can be read, and which of its representations are values. *)
Record rtype := RType { rt : vtype; rep_ok : value -> bool }.

(** C++ language (Standard), with the Itanium and Microsoft ABIs: bool has one byte, 0 for false and 1 for true. *)
Definition bool_type : rtype :=
  RType (TPlain (SPod 1)) (fun v => match v with VPod [x00] => true | VPod [x01] => true | _ => false end).
(** C++ language (Standard): the value of type bool. *)
Definition bool_value (b : bool) : value := VPod [if b then x01 else x00].
(** Model only, no counterpart in the code: a type all of whose representations are values. *)
Definition any_type (t : vtype) : rtype := RType t (fun _ => true).

(** wite/io/byte_buffer_read.hpp:44-50 unchecked_read: the copied bytes are returned as a T; returning them is
    undefined if they are no value of T.  Simplified: done for all the values of a call after the reads. *)
Fixpoint all_ok (ts : list rtype) (vs : list value) : bool :=
  match ts, vs with t :: ts', v :: vs' => rep_ok t v && all_ok ts' vs' | _, _ => true end.
(** wite/io/byte_buffer_read.hpp:77-84 read *)
Definition read_v (ev : env) (ts : list rtype) (buf : list byte) : outcome (list value) :=
  let! vs := read ev (map rt ts) buf in if all_ok ts vs then Ok vs else UB.
(** wite/io/byte_buffer_read.hpp:110-121 read_at *)
Definition read_at_v (ev : env) (ts : list rtype) (pos : N) (buf : list byte) : outcome (list value) :=
  let! vs := read_at ev (map rt ts) pos buf in if all_ok ts vs then Ok vs else UB.

(** wite/io/byte_buffer_read.hpp:143-151 try_read<T> *)
Definition try_read1_v (ev : env) (t : rtype) (buf : list byte) : outcome (result value read_error) :=
  let! r := try_read1 ev (rt t) buf in
  match r with RVal v => if rep_ok t v then Ok r else UB | RErr _ => Ok r end.
(** wite/io/byte_buffer_read.hpp:189-217 try_read_at<T> *)
Definition try_read_at1_v (ev : env) (t : rtype) (pos : N) (buf : list byte) : outcome (result value read_error) :=
  let! r := try_read_at1 ev (rt t) pos buf in
  match r with RVal v => if rep_ok t v then Ok r else UB | RErr _ => Ok r end.
