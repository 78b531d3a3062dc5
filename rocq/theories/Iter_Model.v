(** Model of collections/dereferencing_iterator.hpp.

    A dereferencing iterator walks an array of "raw values" (std::optional<T> in a
    static_vector, T* in an identifiable_item_collection) and gives access to what
    they hold.  The array is a [list (option V)]: [None] is a disengaged optional
    or a pointer to nothing.  A pointer into the array is its position, an integer,
    so that moves to before the array can be expressed.

    Simplifications.  The debug assertions compare [_ptr + offset] with the ends of
    the container even when that pointer is outside the array; strictly this is
    already undefined, here the comparison is made on positions as integers, and
    only the pointer that is *stored* has to be inside the array or one past it
    ([UB] otherwise).  The mutable iterator (166-259) forwards every operator to the
    const one (its operator+ and operator- repeat the assertions, which changes
    nothing), so one model serves both.  [swap] (142-151) names a member [b.ptr]
    that does not exist and cannot be instantiated; it is not modelled. *)
From Verif Require Import Base.

(** dereferencing_iterator.hpp:154-160: pointer, parent, begin and end.  The last
    three exist only in debug builds and are only read by assertions. *)
Record diter := mk_diter { di_ptr : Z; di_parent : N; di_begin : Z; di_end : Z }.

Section Iter.
Context {V : Type}.
Variable b : build.
Variable arr : list (option V).

(** C++ language (Standard). A pointer computation that is stored: [UB] unless the result is in the array or
    one past its end ([expr.add]). *)
Definition di_move (it : diter) (p : Z) : outcome diter :=
  if ((0 <=? p) && (p <=? Z.of_N (lenN arr)))%Z
  then Ok (mk_diter p (di_parent it) (di_begin it) (di_end it)) else UB.

(** C++ language (Standard). The raw value at a position; [UB] outside the array. *)
Definition raw_at (p : Z) : outcome (option V) :=
  if (p <? 0)%Z then UB
  else match nth_error arr (Z.to_nat p) with Some s => Ok s | None => UB end.

(** dereferencing_iterator.hpp:57 (and 58, 193, 194) operator*: [**_ptr], no
    assertion; dereferencing a disengaged optional is undefined. *)
Definition di_deref (it : diter) : outcome V :=
  let! s := raw_at (di_ptr it) in match s with Some v => Ok v | None => UB end.

(** wite/collections/dereferencing_iterator.hpp:60-65 operator++ *)
Definition di_inc (it : diter) : outcome diter :=
  let! _ := dassert b (negb (di_ptr it =? di_end it)%Z) in di_move it (di_ptr it + 1)%Z.

(** wite/collections/dereferencing_iterator.hpp:73-78 operator-- *)
Definition di_dec (it : diter) : outcome diter :=
  let! _ := dassert b (negb (di_ptr it =? di_begin it)%Z) in di_move it (di_ptr it - 1)%Z.

(** wite/collections/dereferencing_iterator.hpp:86-91 operator+= *)
Definition di_add_assign (it : diter) (off : Z) : outcome diter :=
  let! _ := dassert b (di_begin it <=? di_ptr it + off)%Z in
  let! _ := dassert b (di_ptr it + off <? di_end it)%Z in
  di_move it (di_ptr it + off)%Z.

(** wite/collections/dereferencing_iterator.hpp:93-98 operator-= *)
Definition di_sub_assign (it : diter) (off : Z) : outcome diter :=
  let! _ := dassert b (di_begin it <=? di_ptr it - off)%Z in
  let! _ := dassert b (di_ptr it - off <? di_end it)%Z in
  di_move it (di_ptr it - off)%Z.

(** wite/collections/dereferencing_iterator.hpp:100-107 operator+ *)
Definition di_add (it : diter) (off : Z) : outcome diter :=
  let! _ := dassert b (di_begin it <=? di_ptr it + off)%Z in
  let! _ := dassert b (di_ptr it + off <? di_end it)%Z in
  di_add_assign it off.

(** wite/collections/dereferencing_iterator.hpp:109-116 operator- (offset) *)
Definition di_sub (it : diter) (off : Z) : outcome diter :=
  let! _ := dassert b (di_begin it <=? di_ptr it - off)%Z in
  let! _ := dassert b (di_ptr it - off <? di_end it)%Z in
  di_sub_assign it off.

(** wite/collections/dereferencing_iterator.hpp:118-122 operator- (iterator) *)
Definition di_diff (it other : diter) : outcome Z :=
  let! _ := dassert b (di_parent it =? di_parent other) in
  Ok (di_ptr it - di_ptr other)%Z.

(** wite/collections/dereferencing_iterator.hpp:124-128 operator[]: [_ptr[offset].value()], which for a disengaged optional throws
    std::bad_optional_access (here [user_exn]); the function is noexcept except in the
    build whose assertions throw. *)
Definition di_index (it : diter) (off : Z) : outcome V :=
  let! _ := dassert b (0 <=? off)%Z in
  let! _ := dassert b (di_ptr it + off <? di_end it)%Z in
  let! s := raw_at (di_ptr it + off)%Z in
  match s with
  | Some v => Ok v
  | None => match b with DebugThrow => Throw user_exn | _ => Terminate end
  end.

(** wite/collections/dereferencing_iterator.hpp:130-134 operator==, operator!= *)
Definition di_eq (it other : diter) : bool := (di_ptr it =? di_ptr other)%Z.

(** wite/collections/dereferencing_iterator.hpp:136-140 operator<=> *)
Definition di_cmp (it other : diter) : outcome comparison :=
  let! _ := dassert b (di_parent it =? di_parent other) in
  Ok (Z.compare (di_ptr it) (di_ptr other)).

(** static_vector.hpp:88-103, identifiable_item_collection.hpp:63-71: begin() and end()
    of a container with identity [parent] and [n] elements. *)
Definition di_begin_of (parent n : N) : diter := mk_diter 0 parent 0 (Z.of_N n).
(** wite/collections/static_vector.hpp:88-103, wite/collections/identifiable_item_collection.hpp:63-71: end(). *)
Definition di_end_of (parent n : N) : diter := mk_diter (Z.of_N n) parent 0 (Z.of_N n).

(** [for (it = first; it != last; ++it) use( *it )], the loop behind range-for,
    std::equal and the other algorithms; it diverges if it does not stop within
    [fuel] steps. *)
Fixpoint di_walk (fuel : nat) (it last : diter) : outcome (list V) :=
  if di_eq it last then Ok []
  else match fuel with
       | O => Diverge
       | S fuel' =>
           let! v := di_deref it in
           let! it' := di_inc it in
           let! l := di_walk fuel' it' last in
           Ok (v :: l)
       end.

(** The same loop with std::reverse_iterator: [*--tmp] to read, [--current] to step. *)
Fixpoint di_rwalk (fuel : nat) (it first : diter) : outcome (list V) :=
  if di_eq it first then Ok []
  else match fuel with
       | O => Diverge
       | S fuel' =>
           let! tmp := di_dec it in
           let! v := di_deref tmp in
           let! it' := di_dec it in
           let! l := di_rwalk fuel' it' first in
           Ok (v :: l)
       end.
End Iter.
