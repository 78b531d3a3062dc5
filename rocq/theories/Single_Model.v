(** Model of interpolate and fraction of maths/numeric.hpp for the type float.  Each
    operation rounds to its own type (FLT_EVAL_METHOD 0). *)
From Coq Require Import Reals.
From Flocq Require Import Core IEEE754.BinarySingleNaN.
From Verif Require Import Base Range_Model Float_Model.
Local Open Scope Z_scope.

(** C++ language (Standard): the type float *)
Definition single := binary_float 24 128.
#[global] Instance single_prec : Prec_gt_0 24 := eq_refl.
#[global] Instance single_emax : Prec_lt_emax 24 128 := eq_refl.
(** C++ language (Standard): + of floats. *)
Definition sadd (x y : single) : single := Bplus mode_NE x y.
(** C++ language (Standard): - of floats. *)
Definition ssub (x y : single) : single := Bminus mode_NE x y.
(** C++ language (Standard): / of floats. *)
Definition sdiv (x y : single) : single := Bdiv mode_NE x y.
(** C++ language (Standard). An integer converted to float *)
Definition s_of_int (z : Z) : single := binary_normalize 24 128 _ _ mode_NE z 0 false.
(** C++ language (Standard): float converted to double. *)
Definition widen (x : single) : double :=
  match x with
  | B754_zero s => B754_zero s
  | B754_infinity s => B754_infinity s
  | B754_nan => B754_nan
  | B754_finite s m e _ => binary_normalize 53 1024 _ _ mode_NE (SpecFloat.cond_Zopp s (Z.pos m)) e s
  end.
(** C++ language (Standard): static_cast of a double to float, undefined for a finite
    value beyond the largest float. *)
Definition narrow (x : double) : outcome single :=
  match x with
  | B754_zero s => Ok (B754_zero s)
  | B754_infinity s => Ok (B754_infinity s)
  | B754_nan => Ok B754_nan
  | B754_finite s m e _ =>
      if c_gt Bcompare (Babs x) (widen flt_max) then UB
      else Ok (binary_normalize 24 128 _ _ mode_NE (SpecFloat.cond_Zopp s (Z.pos m)) e s)
  end.

(** wite/maths/numeric.hpp:127-130 interpolate, float: the fraction is a double, so the
    product is one *)
Definition s_interpolate (f : double) (mn mx : single) : outcome single :=
  let! k := narrow (dmul f (widen (ssub mx mn))) in Ok (sadd mn k).
(** wite/maths/numeric.hpp:132-143 fraction, float: a quotient of doubles *)
Definition s_fraction (v mn mx : single) : double :=
  if c_eq Bcompare mx mn then B754_nan else ddiv (widen (ssub v mn)) (widen (ssub mx mn)).
(** wite/maths/value_range.hpp:130-132 interpolate of a float range: its parameter is a float *)
Definition vr_interpolate_float (r : vrange single) (f : single) : outcome single :=
  s_interpolate (widen f) (vmin r) (vmax r).
(** wite/maths/value_range.hpp:134 fraction, float *)
Definition vr_fraction_float (r : vrange single) (v : single) : double := s_fraction v (vmin r) (vmax r).
(** wite/maths/value_range.hpp:89-92 size(), float *)
Definition vr_size_float (b : build) (r : vrange single) : outcome single :=
  let! _ := dassert b (c_le Bcompare (vmin r) (vmax r)) in Ok (ssub (vmax r) (vmin r)).
(** wite/maths/value_range.hpp:126 mid(), float *)
Definition vr_mid_float (b : build) (r : vrange single) : outcome single :=
  noexcept (let! s := vr_size_float b r in Ok (ssub (vmax r) (sdiv s (s_of_int 2)))).
