(** Values sent as hexadecimal text. *)
From Coq Require Import List NArith. Import ListNotations.
From Verif Require Import Base Io_Model Io_Spec Hex_Model.
Open Scope N_scope. Open Scope list_scope.

(** The sender: a vector with room for the values, write(vector, values...), hexlify. *)
Definition send_text (ev : env) (ts : list vtype) (vs : list value) : outcome (list N) :=
  let '(bytes, o) := write ev (map (fun p => AVal (fst p) (snd p)) (combine ts vs)) (repeat x00 (N.to_nat (types_size ts))) in
  let! _ := o in hexlify bytes.
(** The receiver: unhexlify, read<types...>(vector). *)
Definition receive_text (ev : env) (w : cwidth) (ts : list vtype) (s : list N) : outcome (list value) :=
  let! bytes := unhexlify w s in read ev ts bytes.
