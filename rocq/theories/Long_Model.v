(** Model of interpolate, fraction and mid for the type long double: a format with at least
    the significand bits and the exponents of double (x87: 64 bits; quadruple: 113 bits; where
    long double is double: 53).  Each operation rounds to its own type (FLT_EVAL_METHOD 0 or,
    as these all are long double, 2). *)
From Coq Require Import Reals.
From Flocq Require Import Core IEEE754.BinarySingleNaN.
From Verif Require Import Base Range_Model Float_Model.
Local Open Scope Z_scope.

Section Wide.
Variables (prec emax : Z).
Context (Hp : Prec_gt_0 prec) (He : Prec_lt_emax prec emax).
Notation wide := (binary_float prec emax).
(** C++ language (Standard): + of long doubles. *)
Definition wadd (x y : wide) : wide := Bplus mode_NE x y.
(** C++ language (Standard): - of long doubles. *)
Definition wsub (x y : wide) : wide := Bminus mode_NE x y.
(** C++ language (Standard): * of long doubles. *)
Definition wmul (x y : wide) : wide := Bmult mode_NE x y.
(** C++ language (Standard): / of long doubles. *)
Definition wdiv (x y : wide) : wide := Bdiv mode_NE x y.
(** C++ language (Standard). An integer converted to long double *)
Definition w_of_int (z : Z) : wide := binary_normalize prec emax _ _ mode_NE z 0 false.
(** C++ language (Standard): double converted to long double. *)
Definition d_widen (x : double) : wide :=
  match x with
  | B754_zero s => B754_zero s
  | B754_infinity s => B754_infinity s
  | B754_nan => B754_nan
  | B754_finite s m e _ => binary_normalize prec emax _ _ mode_NE (SpecFloat.cond_Zopp s (Z.pos m)) e s
  end.
(** C++ language (Standard): long double converted to double, undefined for a finite value
    beyond the largest double. *)
Definition d_narrow (x : wide) : outcome double :=
  match x with
  | B754_zero s => Ok (B754_zero s)
  | B754_infinity s => Ok (B754_infinity s)
  | B754_nan => Ok B754_nan
  | B754_finite s m e _ =>
      if c_gt Bcompare (Babs x) (d_widen flt_max) then UB
      else Ok (binary_normalize 53 1024 _ _ mode_NE (SpecFloat.cond_Zopp s (Z.pos m)) e s)
  end.

(** wite/maths/numeric.hpp:127-130 interpolate, long double: the double fraction is widened,
    the static_cast changes nothing *)
Definition l_interpolate (f : double) (mn mx : wide) : wide := wadd mn (wmul (d_widen f) (wsub mx mn)).
(** wite/maths/numeric.hpp:132-143 fraction, long double: the distance is narrowed to double,
    the width is not, and their long double quotient is narrowed by the return *)
Definition l_fraction (v mn mx : wide) : outcome double :=
  if c_eq Bcompare mx mn then Ok B754_nan
  else let! a := d_narrow (wsub v mn) in d_narrow (wdiv (d_widen a) (wsub mx mn)).
(** wite/maths/value_range.hpp:130-132 interpolate of a long double range: its parameter is a
    long double, passed on as a double *)
Definition vr_interpolate_long (r : vrange wide) (f : wide) : outcome wide :=
  let! g := d_narrow f in Ok (l_interpolate g (vmin r) (vmax r)).
(** wite/maths/value_range.hpp:134 fraction, long double *)
Definition vr_fraction_long (r : vrange wide) (v : wide) : outcome double := l_fraction v (vmin r) (vmax r).
(** wite/maths/value_range.hpp:89-92 size(), long double *)
Definition vr_size_long (b : build) (r : vrange wide) : outcome wide :=
  let! _ := dassert b (c_le Bcompare (vmin r) (vmax r)) in Ok (wsub (vmax r) (vmin r)).
(** wite/maths/value_range.hpp:126 mid(), long double *)
Definition vr_mid_long (b : build) (r : vrange wide) : outcome wide :=
  noexcept (let! s := vr_size_long b r in Ok (wsub (vmax r) (wdiv s (w_of_int 2)))).
End Wide.
Arguments wadd {prec emax Hp He} _ _. Arguments wsub {prec emax Hp He} _ _.
Arguments wmul {prec emax Hp He} _ _. Arguments wdiv {prec emax Hp He} _ _.
Arguments w_of_int {prec emax Hp He} _. Arguments d_widen {prec emax Hp He} _. Arguments d_narrow {prec emax Hp He} _.
Arguments l_interpolate {prec emax Hp He} _ _ _. Arguments l_fraction {prec emax Hp He} _ _ _.
Arguments vr_interpolate_long {prec emax Hp He} _ _. Arguments vr_fraction_long {prec emax Hp He} _ _.
Arguments vr_size_long {prec emax Hp He} _ _. Arguments vr_mid_long {prec emax Hp He} _ _.
