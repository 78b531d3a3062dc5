(** What splitting into a container of fixed capacity may be relied on for. *)
From Coq Require Import List. Import ListNotations.
From Verif Require Import Base String_Model Sv_Model Coll_Spec SplitInto_Model.

(** push_back copies or moves its element twice; neither of the two throws. *)
Definition copies (fail : option N) : Prop := match fail with Some k => 2 <= k | None => True end.

(** [out] holds exactly [l], whichever way one looks. *)
Definition holds {V} (cap : N) (out : svec V) (l : list V) : Prop :=
  shows cap out l /\ forall bld, sv_iterate bld out = Ok l.
