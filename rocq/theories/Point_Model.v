(** Model of wite/geometry/point.hpp. *)
From Verif Require Import Base.

Section Point.
Context {V : Type}.

(** point.hpp:31, 93: std::array<Value_T, DIMENSION_COUNT>.  [None] is an element with
    an indeterminate value: using it is undefined. *)
Definition point := list (option V).

(** C++ language (Standard). Using the value of an element. *)
Definition use (c : option V) : outcome V := match c with Some v => Ok v | None => UB end.

(** point.hpp:41 and constructor_macros.hpp:11, [point<D, V> p;]: nothing is initialised.
    [D]: DIMENSION_COUNT. *)
Definition pt_default (D : nat) : point := repeat None D.
(** wite/geometry/point.hpp:41. The same constructor with [point<D, V> p{};] or [p()]: it is not user-provided, so the
    elements are zero. *)
Definition pt_zero (zero : V) (D : nat) : point := repeat (Some zero) D.
(** point.hpp:43 from a std::array *)
Definition pt_of_array (vals : list V) : point := map Some vals.

(** [_value[i] = v] and the write through std::array's iterator: undefined past the end *)
Fixpoint pt_set (p : point) (i : nat) (v : V) : outcome point :=
  match p, i with
  | [], _ => UB
  | _ :: r, O => Ok (Some v :: r)
  | c :: r, S k => let! r' := pt_set r k v in Ok (c :: r')
  end.

(** point.hpp:45 std::ranges::copy(init, _value.begin()): [i] is the output position. *)
Fixpoint copy_init (p : point) (i : nat) (vals : list V) : outcome point :=
  match vals with
  | [] => Ok p
  | v :: r => let! p' := pt_set p i v in copy_init p' (S i) r
  end.
(** point.hpp:45 from an initializer list *)
Definition pt_of_list (D : nat) (vals : list V) : outcome point := copy_init (pt_default D) 0 vals.

(** point.hpp:83-91 _init<IDX>(val, other_vals...) *)
Fixpoint init_from (p : point) (idx : nat) (val : V) (others : list V) : outcome point :=
  let! p' := pt_set p idx val in
  match others with
  | [] => Ok p'
  | v :: r => init_from p' (idx + 1) v r
  end.
(** point.hpp:47-51 from D arguments; a different number does not compile (line 48). *)
Definition pt_of_args (D : nat) (val : V) (others : list V) : outcome point := init_from (pt_default D) 0 val others.

(** point.hpp:104-110: point_2d, point_3d and point_4d pass their arguments to the base class
    in braces, which selects the initializer-list constructor for values and the array
    constructor for an array. *)
Definition pt_nd_of_args (N : nat) (vals : list V) : outcome point := pt_of_list N vals.
(** wite/geometry/point.hpp:104-110. *)
Definition pt_nd_of_list (N : nat) (vals : list V) : outcome point := pt_of_list N vals.
(** wite/geometry/point.hpp:104-110. *)
Definition pt_nd_of_array (vals : list V) : point := pt_of_array vals.

(** point.hpp:55 *)
Definition pt_dimensions (p : point) : nat := length p.

(** point.hpp:58-61, 69-72 get and 79-80 operator[]: the element, then using its value.
    std::array does not check the index. *)
Definition pt_get (p : point) (i : nat) : outcome V :=
  match nth_error p i with Some c => use c | None => UB end.

(** point.hpp:25 enum class dim *)
Inductive dim := dim_x | dim_y | dim_z | dim_t.
(** wite/geometry/point.hpp:25, 69-77: the cast of a dim to its number. *)
Definition dim_index (d : dim) : nat := match d with dim_x => 0 | dim_y => 1 | dim_z => 2 | dim_t => 3 end.
(** wite/geometry/point.hpp:69-72 and 74-77 *)
Definition pt_get_dim (p : point) (d : dim) : outcome V := pt_get p (dim_index d).
(** wite/geometry/point.hpp:74-77 set. *)
Definition pt_set_dim (p : point) (d : dim) (v : V) : outcome point := pt_set p (dim_index d) v.

(** constructor_macros.hpp:12-15: memberwise copy.  An indeterminate value may be copied
    only if its type is unsigned char or std::byte ([byte_type]). *)
Definition pt_copy (byte_type : bool) (p : point) : outcome point :=
  if byte_type || forallb (fun c => match c with Some _ => true | None => false end) p then Ok p else UB.

(** point.hpp:53: the defaulted <=> compares the arrays, which compare lexicographically;
    [cmp] is the elements' <=> ([None]: unordered). *)
Fixpoint pt_cmp (cmp : V -> V -> option comparison) (p q : point) : outcome (option comparison) :=
  match p, q with
  | [], [] => Ok (Some Eq)
  | [], _ :: _ => Ok (Some Lt)
  | _ :: _, [] => Ok (Some Gt)
  | c :: p', d :: q' =>
      let! x := use c in let! y := use d in
      match cmp x y with
      | Some Eq => pt_cmp cmp p' q'
      | r => Ok r
      end
  end.
(** ... and the operator == that it brings: std::equal *)
Fixpoint pt_eq (cmp : V -> V -> option comparison) (p q : point) : outcome bool :=
  match p, q with
  | [], [] => Ok true
  | c :: p', d :: q' =>
      let! x := use c in let! y := use d in
      match cmp x y with
      | Some Eq => pt_eq cmp p' q'
      | _ => Ok false
      end
  | _, _ => Ok false
  end.
End Point.
Arguments point V : clear implicits.
