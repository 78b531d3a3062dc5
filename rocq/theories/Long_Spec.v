(** What C102 means. *)
From Coq Require Import Reals.
From Flocq Require Import Core IEEE754.BinarySingleNaN.
From Verif Require Import Base.
Local Open Scope R_scope.

(** A format of long double: at least double's significand and exponents. *)
Definition long_format (prec emax : Z) : Prop := (53 <= prec)%Z /\ (1024 <= emax)%Z.
(** A real number rounded to the nearest value of the format (ties to even), ignoring overflow. *)
Notation to_long prec emax := (round radix2 (SpecFloat.fexp prec emax) ZnearestE).
(** Some value of the format is exactly the width of [mn, mx]. *)
Definition exact_width_of {prec emax} (mn mx : binary_float prec emax) : Prop :=
  exists w : binary_float prec emax, B2R w = B2R mx - B2R mn.
(** The largest finite double, 2^1024 - 2^971. *)
Definition dbl_max : R := bpow radix2 1024 - bpow radix2 971.
(** x87's 80-bit extended format, and its value nearest to m * 2^e. *)
Definition x87 := binary_float 64 16384.
#[global] Instance x87_prec : Prec_gt_0 64 := eq_refl.
#[global] Instance x87_emax : Prec_lt_emax 64 16384 := eq_refl.
Definition x87_of (m e : Z) : x87 := binary_normalize 64 16384 x87_prec x87_emax mode_NE m e false.
