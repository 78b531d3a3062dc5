(** Model of core/result.hpp: a class around std::variant<Value_T, Error_T>.

    Values and errors are of arbitrary types.  Copying an element may throw; the
    operations that copy take a flag saying whether the copy throws.  Moving does not
    throw, except where noted: [nothrow_v], [nothrow_e] say whether the element types
    have noexcept move constructors, which std::variant looks at. *)
From Verif Require Import Base.

(** std::variant<V, E>: index 0, index 1, or valueless_by_exception() *)
Inductive var (V E : Type) := Val (v : V) | Err (e : E) | Valueless.
Arguments Val {V E} _. Arguments Err {V E} _. Arguments Valueless {V E}.

Section Result.
Context {V E : Type}.
Notation res := (var V E).
(** What moving from an element leaves behind; what a throwing element assignment of the
    second to the first leaves behind. *)
Variables (moved_v : V -> V) (moved_e : E -> E) (torn_v : V -> V -> V) (torn_e : E -> E -> E).
Variables (nothrow_v nothrow_e : bool).

(** result.hpp:47 ok() (and 38-39 has_value(), operator bool), 48 is_error() *)
Definition r_ok (r : res) : bool := match r with Val _ => true | _ => false end.
(** wite/core/result.hpp:48 is_error(). *)
Definition r_is_error (r : res) : bool := negb (r_ok r).
(** wite/core/result.hpp:49 value() (and 41-45 operator* and ->): std::get throws std::bad_variant_access
    ([user_exn]) out of a noexcept function *)
Definition r_value (r : res) : outcome V := noexcept (match r with Val v => Ok v | _ => Throw user_exn end).
(** wite/core/result.hpp:50 error() *)
Definition r_error (r : res) : outcome E := noexcept (match r with Err e => Ok e | _ => Throw user_exn end).
(** wite/core/result.hpp:53-59 value_or *)
Definition r_value_or (r : res) (d : V) : outcome V := if r_ok r then r_value r else Ok d.

(** wite/core/result.hpp:27, 28 the converting constructors; 30 the default constructor makes a default value *)
Definition r_of_value (v : V) : res := Val v.
(** wite/core/result.hpp:28. *)
Definition r_of_error (e : E) : res := Err e.

(** wite/core/result.hpp:32-36 emplace, noexcept: the new value is constructed in place after the old
    alternative has been destroyed *)
Definition r_emplace (r : res) (v : V) (throws : bool) : outcome res :=
  noexcept (if throws then Throw user_exn else let! _ := r_value (Val v) in Ok (Val v)).

(** wite/core/result.hpp:30 copy assignment (defaulted): [variant.assign] *)
Definition r_copy_assign (dst src : res) (throws : bool) : outcome unit * res :=
  match src, dst with
  | Valueless, _ => (Ok tt, Valueless)
  | Val v, Val u => if throws then (Throw user_exn, Val (torn_v u v)) else (Ok tt, Val v)
  | Err e, Err u => if throws then (Throw user_exn, Err (torn_e u e)) else (Ok tt, Err e)
  | Val v, _ => if throws then (Throw user_exn, if nothrow_v then dst else Valueless) else (Ok tt, Val v)
  | Err e, _ => if throws then (Throw user_exn, if nothrow_e then dst else Valueless) else (Ok tt, Err e)
  end.

(** wite/core/result.hpp:30 move assignment (defaulted, declared noexcept): the new destination and the
    moved-from source *)
Definition moved_from (r : res) : res :=
  match r with Val v => Val (moved_v v) | Err e => Err (moved_e e) | Valueless => Valueless end.
(** wite/core/result.hpp:30 move assignment. *)
Definition r_move_assign (dst src : res) : res * res := (src, moved_from src).

(** wite/core/result.hpp:30 move assignment of a result to itself: std::variant moves the element to itself,
    which leaves the element in some moved-from state *)
Definition r_self_move (r : res) : res := moved_from r.

(** wite/core/result.hpp:91-94 swap, noexcept *)
Definition r_swap (a b : res) : res * res := (b, a).

Section Combinators.
(** The functions passed to the combinators may have side effects on a state [S] and may
    throw; they return a value, an error or a result (a valueless result can be returned
    only if one was there before). *)
Context {S : Type}.
(** wite/core/result.hpp:62-89: the parameter fn. *)
Definition fn (A : Type) := A -> S -> outcome res * S.

(** wite/core/result.hpp:62-68 and_then.  [throws]: the copy of *this throws *)
Definition r_and_then (r : res) (f : fn V) (throws : bool) (s : S) : outcome res * S :=
  if r_ok r then match r_value r with
                 | Ok v => f v s
                 | _ => (Terminate, s)
                 end
  else (if throws then Throw user_exn else Ok r, s).
(** wite/core/result.hpp:77-83 or_else *)
Definition r_or_else (r : res) (f : fn E) (throws : bool) (s : S) : outcome res * S :=
  if r_ok r then (if throws then Throw user_exn else Ok r, s)
  else match r_error r with
       | Ok e => f e s
       | _ => (Terminate, s)
       end.
(** wite/core/result.hpp:71-74 transform: [*this = and_then(fn)], and a reference to *this is returned *)
Definition r_transform (r : res) (f : fn V) (throws : bool) (s : S) : outcome unit * res * S :=
  match r_and_then r f throws s with
  | (Ok t, s') => (Ok tt, fst (r_move_assign r t), s')
  | (Throw e, s') => (Throw e, r, s') | (UB, s') => (UB, r, s')
  | (Terminate, s') => (Terminate, r, s') | (Diverge, s') => (Diverge, r, s')
  end.
(** wite/core/result.hpp:86-89 transform_error *)
Definition r_transform_error (r : res) (f : fn E) (throws : bool) (s : S) : outcome unit * res * S :=
  match r_or_else r f throws s with
  | (Ok t, s') => (Ok tt, fst (r_move_assign r t), s')
  | (Throw e, s') => (Throw e, r, s') | (UB, s') => (UB, r, s')
  | (Terminate, s') => (Terminate, r, s') | (Diverge, s') => (Diverge, r, s')
  end.
End Combinators.

(** Programs over any number of results, all default-constructed ([Val v0]).  A program
    ends when an operation terminates or is undefined. *)
Variable v0 : V.
(** Model only, no counterpart in the code: calls of the members above. *)
Inductive rop :=
| ROfValue (i : N) (v : V) | ROfError (i : N) (e : E)         (* r_i = result{v}; r_i = result{e} *)
| REmplace (i : N) (v : V) (throws : bool)
| RCopy (i j : N) (throws : bool) | RMove (i j : N) | RSwap (i j : N)
| RWrite (i : N) (v : V)                                      (* *r_i = v *)
| RTransform (i : N) (f : V -> outcome res) (throws : bool)   (* r_i.transform(f) *)
| RTransformError (i : N) (f : E -> outcome res) (throws : bool)
| ROk (i : N) | RIsError (i : N) | RValue (i : N) | RError (i : N) | RValueOr (i : N) (d : V).
(** Model only, no counterpart in the code: what a call shows its caller. *)
Inductive robs := OUnit (r : outcome unit) | OBool (x : bool) | OValue (r : outcome V) | OError (r : outcome E).

(** Model only, no counterpart in the code: one result replaced. *)
Definition pupd (p : N -> res) (i : N) (r : res) : N -> res := fun k => if k =? i then r else p k.
(** Model only, no counterpart in the code: a function without state. *)
Definition pure {A} (f : A -> outcome res) : @fn unit A := fun a s => (f a, s).

(** Model only, no counterpart in the code: one call. *)
Definition r_step (o : rop) (p : N -> res) : robs * (N -> res) :=
  match o with
  | ROfValue i v => (OUnit (Ok tt), pupd p i (fst (r_move_assign (p i) (r_of_value v))))
  | ROfError i e => (OUnit (Ok tt), pupd p i (fst (r_move_assign (p i) (r_of_error e))))
  | REmplace i v throws => match r_emplace (p i) v throws with
                           | Ok r => (OUnit (Ok tt), pupd p i r)
                           | _ => (OUnit Terminate, p)
                           end
  | RCopy i j throws => let '(x, r) := r_copy_assign (p i) (p j) throws in (OUnit x, pupd p i r)
  | RMove i j => if i =? j then (OUnit (Ok tt), pupd p i (r_self_move (p i)))
                 else let '(d, s) := r_move_assign (p i) (p j) in (OUnit (Ok tt), pupd (pupd p j s) i d)
  | RSwap i j => let '(x, y) := r_swap (p i) (p j) in (OUnit (Ok tt), pupd (pupd p j y) i x)
  | RWrite i v => match r_value (p i) with
                  | Ok _ => (OUnit (Ok tt), pupd p i (Val v))
                  | _ => (OUnit Terminate, p)
                  end
  | RTransform i f throws => let '(x, r, _) := r_transform (p i) (pure f) throws tt in (OUnit x, pupd p i r)
  | RTransformError i f throws => let '(x, r, _) := r_transform_error (p i) (pure f) throws tt in (OUnit x, pupd p i r)
  | ROk i => (OBool (r_ok (p i)), p)
  | RIsError i => (OBool (r_is_error (p i)), p)
  | RValue i => (OValue (r_value (p i)), p)
  | RError i => (OError (r_error (p i)), p)
  | RValueOr i d => (OValue (r_value_or (p i) d), p)
  end.
(** Model only, no counterpart in the code: the program survives the call. *)
Definition goes_on (x : robs) : bool :=
  match x with
  | OUnit (Ok _ | Throw _) | OBool _ | OValue (Ok _ | Throw _) | OError (Ok _ | Throw _) => true
  | _ => false
  end.
(** Model only, no counterpart in the code: a sequence of calls. *)
Fixpoint r_run (ops : list rop) (p : N -> res) : list robs * (N -> res) :=
  match ops with
  | [] => ([], p)
  | o :: ops' =>
      let '(x, p1) := r_step o p in
      if goes_on x then let '(xs, p2) := r_run ops' p1 in (x :: xs, p2) else ([x], p1)
  end.
(** Model only, no counterpart in the code: the start of a program. *)
Definition r_start : N -> res := fun _ => Val v0.
End Result.
Arguments rop V E : clear implicits. Arguments robs V E : clear implicits.
