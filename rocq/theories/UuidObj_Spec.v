(** What C106 means. *)
From Coq Require Import String List. Import ListNotations.
From Verif Require Import Base Uuid_Spec UuidObj_Model.
Local Open Scope N_scope. Local Open Scope list_scope.

(** The object with the name of a format letter. *)
Definition object_of (upper : bool) (f : uformat) : object :=
  match f, upper with
  | FN, true => oN | FN, false => on | FD, true => oD | FD, false => od | FB, true => oB | FB, false => ob
  | FP, true => oP | FP, false => op | FX, true => oX | FX, false => ox
  end.
(** Text between braces. *)
Definition braced (s : list N) : Prop := exists t, s = txt "{" ++ t ++ txt "}".
