(** Model of maths/value_range.hpp, maths/bounded_value.hpp and the order functions of
    maths/numeric.hpp, over a value type given by its three-way comparison. *)
From Verif Require Import Base.

(** value_range.hpp:47 range_boundary *)
Inductive boundary := closed | opened.
(** wite/maths/value_range.hpp:51-53, 137-138: the two ends.  The boundary kinds are template arguments, hence
    arguments of the functions below. *)
Record vrange (T : Type) := VR { vmin : T; vmax : T }.
Arguments VR {T} _ _. Arguments vmin {T} _. Arguments vmax {T} _.

Section Order.
Context {T : Type}.
(** The value type's operators; [None]: unordered (a NaN). *)
Variable cmp : T -> T -> option comparison.
(** The value type (wite/maths/value_range.hpp:51-53): operator<. *)
Definition c_lt (x y : T) : bool := match cmp x y with Some Lt => true | _ => false end.
(** The value type (wite/maths/value_range.hpp:51-53): operator>. *)
Definition c_gt (x y : T) : bool := match cmp x y with Some Gt => true | _ => false end.
(** The value type (wite/maths/value_range.hpp:51-53): operator==. *)
Definition c_eq (x y : T) : bool := match cmp x y with Some Eq => true | _ => false end.
(** The value type (wite/maths/value_range.hpp:51-53): operator<=. *)
Definition c_le (x y : T) : bool := match cmp x y with Some Lt => true | Some Eq => true | _ => false end.
(** The value type (wite/maths/value_range.hpp:51-53): operator>=. *)
Definition c_ge (x y : T) : bool := match cmp x y with Some Gt => true | Some Eq => true | _ => false end.

(** std::min, std::max: the first argument among equals *)
Definition std_min (a b : T) : T := if c_lt b a then b else a.
(** std::max *)
Definition std_max (a b : T) : T := if c_lt a b then b else a.
(** std::clamp: undefined if the bounds are the wrong way round *)
Definition std_clamp (v lo hi : T) : outcome T :=
  if c_lt hi lo then UB
  else Ok (if c_lt v lo then lo else if c_lt hi v then hi else v).

(** numeric.hpp:43-67 min(first, others...).  The two overloads differ in passing by value
    or by reference only.  Without others it does not compile. *)
Fixpoint v_min (first : T) (others : list T) : T :=
  match others with
  | [] => first
  | y :: ys => match ys with [] => std_min first y | _ => std_min first (v_min y ys) end
  end.
(** wite/maths/numeric.hpp:69-93 max *)
Fixpoint v_max (first : T) (others : list T) : T :=
  match others with
  | [] => first
  | y :: ys => match ys with [] => std_max first y | _ => std_max first (v_max y ys) end
  end.
(** wite/maths/numeric.hpp:95-103 minmax of two references *)
Definition minmax2 (left right : T) : T * T := if c_le left right then (left, right) else (right, left).
(** wite/maths/numeric.hpp:105-123 minmax; two arguments that are names bind to the overload above. *)
Definition v_minmax (first : T) (others : list T) : T * T := (v_min first others, v_max first others).
(** std::ranges::minmax: the first smallest and the last largest; undefined for an empty range *)
Fixpoint r_minmax_from (mn mx : T) (l : list T) : T * T :=
  match l with
  | [] => (mn, mx)
  | x :: l' => r_minmax_from (if c_lt x mn then x else mn) (if c_lt x mx then mx else x) l'
  end.
(** std::ranges::minmax, undefined on an empty range. *)
Definition r_minmax (l : list T) : outcome (T * T) :=
  match l with [] => UB | x :: l' => Ok (r_minmax_from x x l') end.

Section Build.
Variable b : build.
(** value_range.hpp:55-57 the constructor *)
Definition vr_make (x y : T) : outcome (vrange T) :=
  let! _ := dassert b (c_le x y) in Ok (VR x y).

Section Kinds.
Variables (lk hk : boundary).
(** wite/maths/value_range.hpp:110-116 *)
Definition below_min (r : vrange T) (v : T) : bool :=
  match lk with closed => c_lt v (vmin r) | opened => c_le v (vmin r) end.
(** wite/maths/value_range.hpp:118-124 *)
Definition above_max (r : vrange T) (v : T) : bool :=
  match hk with closed => c_gt v (vmax r) | opened => c_ge v (vmax r) end.
(** wite/maths/value_range.hpp:108 *)
Definition contains (r : vrange T) (v : T) : bool := negb (below_min r v || above_max r v).
(** wite/maths/value_range.hpp:64-67 *)
Definition vr_eq (r s : vrange T) : bool := c_eq (vmin r) (vmin s) && c_eq (vmax r) (vmax s).
(** wite/maths/value_range.hpp:95 *)
Definition vr_empty (r : vrange T) : bool := c_eq (vmin r) (vmax r).
(** wite/maths/value_range.hpp:97-106 *)
Definition overlap (r s : vrange T) : outcome (option (vrange T)) :=
  let! _ := dassert b (c_le (vmin r) (vmax r)) in
  let! _ := dassert b (c_le (vmin s) (vmax s)) in
  if c_gt (vmin r) (vmax s) || c_lt (vmax r) (vmin s) then Ok None
  else omap Some (vr_make (std_max (vmin r) (vmin s)) (std_min (vmax r) (vmax s))).
(** wite/maths/value_range.hpp:128 *)
Definition clamp (r : vrange T) (v : T) : outcome T := std_clamp v (vmin r) (vmax r).

(** wite/maths/value_range.hpp:70-77 min(x): [nxt] is maths::next_value.  The predicate is evaluated in debug builds only. *)
Definition set_min (nxt : T -> outcome T) (r : vrange T) (x : T) : outcome (vrange T) :=
  let! _ := match b with
            | Release => Ok tt
            | _ => match lk with
                   | closed => dassert b (negb (above_max r x))
                   | opened => let! n := nxt x in dassert b (negb (above_max r n))
                   end
            end in
  Ok (VR x (vmax r)).
(** wite/maths/value_range.hpp:80-87 max(x) *)
Definition set_max (prv : T -> outcome T) (r : vrange T) (x : T) : outcome (vrange T) :=
  let! _ := match b with
            | Release => Ok tt
            | _ => match hk with
                   | closed => dassert b (negb (below_min r x))
                   | opened => let! n := prv x in dassert b (negb (below_min r n))
                   end
            end in
  Ok (VR (vmin r) x).

(** bounded_value.hpp:23-41: a value beside its bounds *)
Definition bounded : Type := T * vrange T.
(** wite/maths/bounded_value.hpp:32 *)
Definition is_in_bounds (v : bounded) : bool := contains (snd v) (fst v).
(** wite/maths/bounded_value.hpp:34-37 *)
Definition bv_clamp (v : bounded) : outcome bounded :=
  let! x := clamp (snd v) (fst v) in Ok (x, snd v).
End Kinds.

(** value_range.hpp:162-170 min of ranges *)
Fixpoint vr_min (left : vrange T) (others : list (vrange T)) : T :=
  match others with
  | [] => vmin left
  | y :: ys => match ys with [] => std_min (vmin left) (vmin y) | _ => std_min (vmin left) (vr_min y ys) end
  end.
(** wite/maths/value_range.hpp:174-182 max of ranges *)
Fixpoint vr_max (left : vrange T) (others : list (vrange T)) : T :=
  match others with
  | [] => vmax left
  | y :: ys => match ys with [] => std_max (vmax left) (vmax y) | _ => std_max (vmax left) (vr_max y ys) end
  end.
(** wite/maths/value_range.hpp:186-191 envelope of values.  Two values use [minmax2]. *)
Definition envelope (first : T) (others : list T) : outcome (vrange T) :=
  noexcept (let '(mn, mx) := match others with [y] => minmax2 first y | _ => v_minmax first others end in
            vr_make mn mx).
(** wite/maths/value_range.hpp:193-197, 205-209 envelope of a range *)
Definition envelope_range (l : list T) : outcome (vrange T) :=
  noexcept (let! p := r_minmax l in vr_make (fst p) (snd p)).
(** wite/maths/value_range.hpp:199-203 envelope of value ranges *)
Definition envelope_ranges (left : vrange T) (others : list (vrange T)) : outcome (vrange T) :=
  noexcept (vr_make (vr_min left others) (vr_max left others)).
End Build.
End Order.

(** * Built-in integer types *)
(** C++ language (Standard). An integer type: signedness and width in bits. *)
Record ity := ITy { it_signed : bool; it_bits : Z }.
(** C++ language (Standard): std::numeric_limits::lowest(). *)
Definition it_lo (t : ity) : Z := if it_signed t then (- 2 ^ (it_bits t - 1))%Z else 0%Z.
(** C++ language (Standard): std::numeric_limits::max(). *)
Definition it_hi (t : ity) : Z := if it_signed t then (2 ^ (it_bits t - 1) - 1)%Z else (2 ^ it_bits t - 1)%Z.
(** C++ language (Standard): the values of the type. *)
Definition it_in (t : ity) (v : Z) : bool := (it_lo t <=? v)%Z && (v <=? it_hi t)%Z.
(** C++ language (Standard). The integral promotions, with a 32-bit int *)
Definition promoted (t : ity) : ity := if (it_bits t <? 32)%Z then ITy true 32 else t.
(** C++ language (Standard). Conversion to an integer type (modular since C++20) *)
Definition it_conv (t : ity) (v : Z) : Z := ((v - it_lo t) mod 2 ^ it_bits t + it_lo t)%Z.
(** C++ language (Standard). The arithmetic result [v] of an operation on two operands of type [t] *)
Definition it_arith (t : ity) (v : Z) : outcome Z :=
  let p := promoted t in
  if it_in p v then Ok v else if it_signed p then UB else Ok (it_conv p v).

(** C++ language (Standard): comparison of integers of one type. *)
Definition zcmp (x y : Z) : option comparison := Some (x ?= y)%Z.

(** numeric.hpp:23-30 next_value, integers *)
Definition int_next (t : ity) (v : Z) : outcome Z := let! s := it_arith t (v + 1) in Ok (it_conv t s).
(** wite/maths/numeric.hpp:32-39 prev_value, integers *)
Definition int_prev (t : ity) (v : Z) : outcome Z := let! s := it_arith t (v - 1) in Ok (it_conv t s).
(** value_range.hpp:89-92 size(), width(), integers *)
Definition vr_size (b : build) (t : ity) (r : vrange Z) : outcome Z :=
  let! _ := dassert b (c_le zcmp (vmin r) (vmax r)) in
  let! d := it_arith t (vmax r - vmin r) in Ok (it_conv t d).
(** wite/maths/value_range.hpp:126 mid(): the size in its own type, halved towards zero *)
Definition vr_mid (b : build) (t : ity) (r : vrange Z) : outcome Z :=
  noexcept (let! s := vr_size b t r in
            let! m := it_arith t (vmax r - Z.quot s 2) in Ok (it_conv t m)).
(** bounded_value.hpp:28-29 the default bounds of an integer *)
Definition int_default_bounds (b : build) (t : ity) : outcome (vrange Z) := vr_make zcmp b (it_lo t) (it_hi t).
