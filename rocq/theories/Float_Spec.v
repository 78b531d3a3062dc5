(** What the statements about floating-point values mean. *)
From Coq Require Import Reals.
From Flocq Require Import Core IEEE754.BinarySingleNaN.
From Verif Require Import Base Range_Model Range_Spec Float_Model.
Local Open Scope R_scope.

Definition not_nan (prec emax : Z) (x : binary_float prec emax) : Prop := is_nan x = false.
(** The order of the values: infinities at the ends, the finite ones by their real value. *)
Definition ext_le (prec emax : Z) (x y : binary_float prec emax) : Prop :=
  x = B754_infinity true \/ y = B754_infinity false \/
  (is_finite x = true /\ is_finite y = true /\ B2R x <= B2R y).
Notation fin x := (is_finite x = true).
(** There is a finite value inside. *)
Definition holds_float {prec emax} (lk hk : boundary) (r : vrange (binary_float prec emax)) : Prop :=
  exists y, fin y /\ in_interval (ext_le prec emax) lk hk r y.
(** A real number rounded to the nearest double (ties to even), ignoring overflow. *)
Notation dexp := (SpecFloat.fexp 53 1024).
Notation rnd := (round radix2 dexp ZnearestE).
(** [y] is the least finite value above [x], or the greatest below it. *)
Definition next_up {prec emax} (x y : binary_float prec emax) : Prop :=
  fin y /\ B2R x < B2R y /\ forall z : binary_float prec emax, fin z -> B2R x < B2R z -> B2R y <= B2R z.
Definition next_down {prec emax} (x y : binary_float prec emax) : Prop :=
  fin y /\ B2R y < B2R x /\ forall z : binary_float prec emax, fin z -> B2R z < B2R x -> B2R z <= B2R y.
