(** Model of the floating-point side of maths/numeric.hpp and maths/value_range.hpp.
    A floating-point type is Flocq's IEEE 754 format with [prec] bits of significand and
    exponents below [emax] (float: 24, 128; double: 53, 1024); arithmetic rounds to nearest
    even; there is one NaN (no payloads, no signalling). *)
From Coq Require Import Reals.
From Flocq Require Import Core IEEE754.BinarySingleNaN.
From Verif Require Import Base Range_Model.
Local Open Scope Z_scope.

Section Format.
Variables (prec emax : Z).
Context (Hp : Prec_gt_0 prec) (He : Prec_lt_emax prec emax).
Notation flt := (binary_float prec emax).
(** std::numeric_limits<T>::max(), the largest finite value *)
Definition flt_max : flt := Bmax_float.
(** std::numeric_limits<T>::min(), the smallest positive normal value *)
Definition flt_min : flt := Bldexp mode_NE Bone (2 - emax).
(** std::nexttoward(x, y): y if equal, else the neighbour of x in the direction of y *)
Definition nexttoward (x y : flt) : flt :=
  match Bcompare x y with
  | None => B754_nan
  | Some Eq => y
  | Some Lt => Bsucc x
  | Some Gt => Bpred x
  end.
(** numeric.hpp:23-30 next_value *)
Definition flt_next (x : flt) : flt := nexttoward x flt_max.
(** wite/maths/numeric.hpp:32-39 prev_value *)
Definition flt_prev (x : flt) : flt := nexttoward x flt_min.
(** bounded_value.hpp:28-29 the default bounds *)
Definition flt_default_bounds (b : build) : outcome (vrange flt) := vr_make Bcompare b flt_min flt_max.
(** wite/maths/value_range.hpp:70-77 min(x) of a floating-point range *)
Definition flt_set_min (b : build) (lk hk : boundary) (r : vrange flt) (x : flt) : outcome (vrange flt) :=
  set_min Bcompare b lk hk (fun v => Ok (flt_next v)) r x.
(** wite/maths/value_range.hpp:80-87 max(x) of a floating-point range *)
Definition flt_set_max (b : build) (lk hk : boundary) (r : vrange flt) (x : flt) : outcome (vrange flt) :=
  set_max Bcompare b lk hk (fun v => Ok (flt_prev v)) r x.
End Format.
Arguments flt_max {prec emax Hp He}. Arguments flt_min {prec emax Hp He}.
Arguments nexttoward {prec emax Hp He} _ _. Arguments flt_next {prec emax Hp He} _. Arguments flt_prev {prec emax Hp He} _.
Arguments flt_default_bounds {prec emax Hp He} _.
Arguments flt_set_min {prec emax Hp He} _ _ _ _ _. Arguments flt_set_max {prec emax Hp He} _ _ _ _ _.

(** C++ language (Standard): the type double *)
Definition double := binary_float 53 1024.
#[global] Instance double_prec : Prec_gt_0 53 := eq_refl.
#[global] Instance double_emax : Prec_lt_emax 53 1024 := eq_refl.
(** C++ language (Standard): + of doubles. *)
Definition dadd (x y : double) : double := Bplus mode_NE x y.
(** C++ language (Standard): - of doubles. *)
Definition dsub (x y : double) : double := Bminus mode_NE x y.
(** C++ language (Standard): * of doubles. *)
Definition dmul (x y : double) : double := Bmult mode_NE x y.
(** C++ language (Standard): / of doubles. *)
Definition ddiv (x y : double) : double := Bdiv mode_NE x y.
(** C++ language (Standard). An integer converted to double *)
Definition of_int (z : Z) : double := binary_normalize 53 1024 _ _ mode_NE z 0 false.
(** C++ language (Standard). static_cast to an integer type: undefined unless the truncated value is in the type *)
Definition to_int (t : ity) (x : double) : outcome Z :=
  if is_finite x && it_in t (Btrunc x) then Ok (Btrunc x) else UB.

(** numeric.hpp:127-130 interpolate, double *)
Definition d_interpolate (f mn mx : double) : double := dadd mn (dmul f (dsub mx mn)).
(** wite/maths/numeric.hpp:127-130 interpolate, integers *)
Definition i_interpolate (t : ity) (f : double) (mn mx : Z) : outcome Z :=
  let! d := it_arith t (mx - mn) in
  let! k := to_int t (dmul f (of_int d)) in
  let! s := it_arith t (mn + k) in Ok (it_conv t s).
(** wite/maths/numeric.hpp:132-143 fraction, double *)
Definition d_fraction (v mn mx : double) : double :=
  if c_eq Bcompare mx mn then B754_nan else ddiv (dsub v mn) (dsub mx mn).
(** wite/maths/numeric.hpp:132-143 fraction, integers; numeric_limits<int>::quiet_NaN() is 0 *)
Definition i_fraction (t : ity) (v mn mx : Z) : outcome double :=
  if c_eq zcmp mx mn then Ok (of_int 0)
  else let! a := it_arith t (v - mn) in
       let! d := it_arith t (mx - mn) in
       Ok (ddiv (of_int a) (of_int d)).
(** value_range.hpp:130-132 interpolate of an integer range: its parameter is the value
    type, so the fraction the caller gives is converted to it first *)
Definition vr_interpolate_int (t : ity) (r : vrange Z) (f : double) : outcome Z :=
  let! k := to_int t f in i_interpolate t (of_int k) (vmin r) (vmax r).
(** wite/maths/value_range.hpp:130-132 ... of a double range *)
Definition vr_interpolate_double (r : vrange double) (f : double) : double := d_interpolate f (vmin r) (vmax r).
(** wite/maths/value_range.hpp:134 fraction *)
Definition vr_fraction_int (t : ity) (r : vrange Z) (v : Z) : outcome double := i_fraction t v (vmin r) (vmax r).
(** wite/maths/value_range.hpp:134 fraction, double *)
Definition vr_fraction_double (r : vrange double) (v : double) : double := d_fraction v (vmin r) (vmax r).
(** wite/maths/value_range.hpp:89-92 size(), double *)
Definition vr_size_double (b : build) (r : vrange double) : outcome double :=
  let! _ := dassert b (c_le Bcompare (vmin r) (vmax r)) in Ok (dsub (vmax r) (vmin r)).
(** wite/maths/value_range.hpp:126 mid(), double *)
Definition vr_mid_double (b : build) (r : vrange double) : outcome double :=
  noexcept (let! s := vr_size_double b r in Ok (dsub (vmax r) (ddiv s (of_int 2)))).

(** Model only, no counterpart in the code (compare wite/maths/numeric.hpp:127-143). The same two formulas in exact arithmetic. *)
Definition r_interpolate (f mn mx : R) : R := (mn + f * (mx - mn))%R.
(** Model only, no counterpart in the code: the same for fraction. *)
Definition r_fraction (v mn mx : R) : R := ((v - mn) / (mx - mn))%R.
