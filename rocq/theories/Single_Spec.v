(** What C94 means. *)
From Coq Require Import Reals.
From Flocq Require Import Core IEEE754.BinarySingleNaN.
From Verif Require Import Single_Model.
Local Open Scope R_scope.

(** A real number rounded to the nearest float (ties to even), ignoring overflow. *)
Notation to_float := (round radix2 (SpecFloat.fexp 24 128) ZnearestE).
(** Some float is exactly the width of [mn, mx]. *)
Definition exact_width (mn mx : single) : Prop := exists w : single, B2R w = B2R mx - B2R mn.
(** The float nearest to m * 2^e. *)
Definition float_of (m e : Z) : single := binary_normalize 24 128 single_prec single_emax mode_NE m e false.
