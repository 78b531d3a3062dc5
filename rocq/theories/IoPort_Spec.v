(** Moving data between buffers, streams, files and machines. *)
From Verif Require Import Base Io_Model Io_Spec.

(** A build whose configured byte order is the machine's. *)
Definition configured_right (ev : env) : Prop := machine ev = configured ev.
(** Types whose bytes do not depend on the machine: encoded integers, single bytes, and
    plain-old-data that is itself machine independent. *)
Definition portable (t : vtype) : Prop :=
  match t with TEnc _ _ _ => True | TPlain (SPod _) => True | TPlain (SInt n _) => n = 1%nat end.
