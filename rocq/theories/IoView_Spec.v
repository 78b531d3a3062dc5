(** Well-formed calls on views and the log of accepted writes. *)
From Verif Require Import Base Io_Model Io_Spec IoView_Model.

(** Iterator distances are ptrdiff_t. *)
Definition ptr_max : N := 2 ^ 63.

(** Arguments of read calls: existing C++ types, sizes in the range of ptrdiff_t. *)
Definition rop_ok (op : rop) : Prop :=
  match op with
  | RSeek p | RTrySeek p => p < size_mod
  | RRead ts | RTryRead ts => ts <> [] /\ Forall vtype_ok ts /\ types_size ts < ptr_max
  | RReadRange t k | RTryReadRange t k => vtype_ok t /\ N.of_nat k * value_size t < ptr_max
  | RReadEndian n _ _ => (1 < n)%nat /\ N.of_nat n < ptr_max
  end.

(** Arguments of write calls: values of their types, sizes in the range of ptrdiff_t. *)
Definition wop_ok (op : wop) : Prop :=
  match op with
  | WSeek p | WTrySeek p => p < size_mod
  | WWrite args | WTryWrite args => args <> [] /\ Forall arg_ok args /\ args_size args < ptr_max
  | WWriteEndian n sg z _ => (1 < n)%nat /\ N.of_nat n < ptr_max /\ int_ok n sg z
  end.

(** The arguments a write operation asks to be written. *)
Definition wop_args (op : wop) : list warg :=
  match op with
  | WWrite args => args
  | WWriteEndian n sg z e => [AVal (TEnc e n sg) (VInt z)]
  | _ => []
  end.
Definition is_throwing_write (op : wop) : Prop :=
  match op with WWrite _ | WWriteEndian _ _ _ _ => True | _ => False end.
(** Arguments of the calls that returned normally, in call order. *)
Definition accepted (ops : list wop) (outs : list (outcome wout)) : list warg :=
  concat (map (fun p => match snd p with Ok _ => wop_args (fst p) | _ => [] end) (combine ops outs)).

(** ** Several views of one buffer of [len] bytes *)

(** Well-formed calls; unchecked seeks stay inside the buffer. *)
Definition sop_ok (len : N) (o : sop) : Prop :=
  match o with
  | SR _ op => rop_ok op
  | SW _ op => wop_ok op
  | SRJump _ p | SWJump _ p => p <= len
  end.
(** The call returned or threw an exception. *)
Definition sout_fine (x : sout) : Prop :=
  match x with
  | SRo o => (exists r, o = Ok r) \/ (exists e, o = Throw e)
  | SWo o => (exists r, o = Ok r) \/ (exists e, o = Throw e)
  | SJo o => o = Ok tt
  end.

(** A history in which write view [w] alone writes, by write and write_with_endian, and read
    view [r] reads by read, read_range and read_with_endianness.  Other read views may do
    anything. *)
Definition queue_op (w r : N) (o : sop) : Prop :=
  match o with
  | SW i op => i = w /\ is_throwing_write op
  | SR i (RRead _ | RReadRange _ _ | RReadEndian _ _ _) => True
  | SR i _ | SRJump i _ => i <> r
  | SWJump _ _ => False
  end.
(** The values given to the writes that returned, in order, with their types. *)
Definition arg_values (a : warg) : list (vtype * value) :=
  match a with AVal t v => [(t, v)] | ARange s vs => map (fun v => (TPlain s, v)) vs end.
Definition put_values (ops : list sop) (outs : list sout) : list (vtype * value) :=
  concat (map (fun p => match p with
                        | (SW _ op, SWo (Ok _)) => concat (map arg_values (wop_args op))
                        | _ => []
                        end) (combine ops outs)).
(** The types asked for and the values returned by the reads of [r] that returned, in order. *)
Definition got_types (r : N) (ops : list sop) (outs : list sout) : list vtype :=
  concat (map (fun p => match p with
                        | (SR i op, SRo (Ok _)) =>
                            if i =? r then match op with
                                           | RRead ts => ts
                                           | RReadRange t k => repeat t k
                                           | RReadEndian n sg e => [TEnc e n sg]
                                           | _ => []
                                           end else []
                        | _ => []
                        end) (combine ops outs)).
Definition got_values (r : N) (ops : list sop) (outs : list sout) : list value :=
  concat (map (fun p => match p with
                        | (SR i _, SRo (Ok (ROVals vs))) => if i =? r then vs else []
                        | _ => []
                        end) (combine ops outs)).
(** The part of a history that read view [r] depends on: its own calls and the writers'. *)
Definition matters (r : N) (o : sop) : bool :=
  match o with SR i _ | SRJump i _ => i =? r | SW _ _ | SWJump _ _ => true end.
