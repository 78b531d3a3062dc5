(** Model of parsing with the format objects of namespace uuid_format. *)
From Coq Require Import List. Import ListNotations.
From Verif Require Import Base Hex_Model Uuid_Model.
Local Open Scope N_scope.

(** wite/core/uuid/uuid_functions.hpp:214-329: the format objects. *)
Inductive object := oN | on | oD | od | oB | ob | oP | op | oX | ox.
(** wite/core/uuid/uuid_functions.hpp:214-329 *)
Definition object_format (o : object) : ufmt :=
  match o with
  | oN => fmt_N | on => fmt_n | oD => fmt_D | od => fmt_d | oB => fmt_B | ob => fmt_b
  | oP => fmt_P | op => fmt_p | oX => fmt_X | ox => fmt_x
  end.
(** wite/core/uuid.hpp:186-208 try_make_uuid(s, fmt), noexcept *)
Definition try_make_uuid_with (w : cwidth) (after s : list N) (o : object) : outcome (result (list byte) make_uuid_error) :=
  noexcept (try_make_uuid_fmt w after s (object_format o)).
