(** What file and stream users expect. *)
From Verif Require Import Base Io_Model Io_Spec File_Model.

(** [v] is the value of type [s] that the bytes [bs] stand for. *)
Definition stands_for (ev : env) (s : scalar) (v : value) (bs : list byte) : Prop :=
  typed (TPlain s) v /\ value_encoding ev (TPlain s) v bs.

(** The operating system moves all bytes asked for. *)
Definition full_reads (w : os) : Prop := forall n, n <= rd_moved w n.
Definition full_writes (w : os) (n : N) : Prop := fold_right N.add 0 (wr_pieces w) = n.

(** A range of single-byte elements. *)
Definition byte_range_of (r : range) : Prop := rg_esize r = 1 /\ range_ok r.

(** [a] is an initial part of [b]. *)
Definition prefix_of {A} (a b : list A) : Prop := exists c, b = a ++ c.

(** The contents the last write to [p] in a history gave it. *)
Fixpoint latest (init : fs) (p : path) (ops : list fop) : option (list byte) :=
  match ops with
  | [] => init p
  | (FWrite _ q r | FTryWrite _ q r) :: rest =>
      latest (fun x => if x =? q then Some (rg_mem r) else init x) p rest
  end.

(** Every call can open its file, has a byte range as source and is not cut short. *)
Definition fop_fine (o : fop) : Prop :=
  match o with
  | FWrite w p r | FTryWrite w p r =>
      can_write w p = true /\ byte_range_of r /\ full_writes w (lenN (rg_mem r))
  end.

(** The [n]-byte two's complement bit pattern of [z], as an unsigned number. *)
Definition bit_pattern (bits : N) (z : Z) : Z := (z mod 2 ^ Z.of_N bits)%Z.
