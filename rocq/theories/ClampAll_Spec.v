(** Clamping a value into one range after the other. *)
From Coq Require Import List. Import ListNotations.
From Verif Require Import Base Range_Model Range_Spec.

(** for (const auto& r : ranges) { value = r.clamp(value); } *)
Fixpoint clamp_all {T} (cmp : T -> T -> option comparison) (ranges : list (vrange T)) (x : T) : outcome T :=
  match ranges with [] => Ok x | r :: rs => let! y := clamp cmp r x in clamp_all cmp rs y end.
(** Both end, with values that compare equal. *)
Definition same_value {T} (le : T -> T -> Prop) (o o' : outcome T) : Prop :=
  exists y z, o = Ok y /\ o' = Ok z /\ le y z /\ le z y.
(** The value is in every range, ends included. *)
Definition in_all {T} (le : T -> T -> Prop) (rs : list (vrange T)) (v : T) : Prop := forall s, In s rs -> in_interval le closed closed s v.
