(** Shared vocabulary of the model: outcomes of C++ calls, size_t arithmetic,
    bytes, slices of lists. *)
From Coq Require Export List NArith ZArith Lia Bool.
From Coq.Strings Require Export Byte.
From Coq Require Export ZifyBool ZifyNat ZifyN.
Export ListNotations.
#[global] Open Scope N_scope.
#[global] Open Scope list_scope.

(** C++ exception classes thrown by wite (std::out_of_range, ...). *)
Inductive exn := out_of_range | invalid_argument | logic_error | length_error
               | runtime_error | filesystem_error | bad_alloc | user_exn.

(** How a call can end.  [UB]: the C++ standard puts no requirement on what
    happens next.  [Terminate]: std::terminate or a failed debug assertion that
    stops the program.  [Diverge]: the call does not return. *)
Inductive outcome (A : Type) :=
| Ok (a : A) | Throw (e : exn) | UB | Terminate | Diverge.
Arguments Ok {A} _. Arguments Throw {A} _. Arguments UB {A}.
Arguments Terminate {A}. Arguments Diverge {A}.

(** C++ language (Standard): sequencing; everything but a normal return stops the call. *)
Definition obind {A B} (x : outcome A) (f : A -> outcome B) : outcome B :=
  match x with
  | Ok a => f a | Throw e => Throw e | UB => UB
  | Terminate => Terminate | Diverge => Diverge
  end.
Notation "'let!' x ':=' c 'in' k" := (obind c (fun x => k))
  (at level 200, x pattern, c at level 100, k at level 200).

(** Model only, no counterpart in the code: a function applied to a normal result. *)
Definition omap {A B} (f : A -> B) (x : outcome A) : outcome B := let! a := x in Ok (f a).

(** A function marked [noexcept]: an escaping exception calls std::terminate. *)
Definition noexcept {A} (x : outcome A) : outcome A :=
  match x with Throw _ => Terminate | _ => x end.

(** The three builds (core/assert.hpp:12-74, env/configuration.hpp): without
    assertions; with assert(), which aborts; with assertions that throw
    wite::assertion_error, a std::logic_error. *)
Inductive build := Release | DebugAbort | DebugThrow.

(** _WITE_DEBUG_ASSERT (core/assert.hpp:42-47, 52, 64) *)
Definition dassert (b : build) (pred : bool) : outcome unit :=
  match b with
  | Release => Ok tt
  | DebugAbort => if pred then Ok tt else Terminate
  | DebugThrow => if pred then Ok tt else Throw logic_error
  end.

(** The library's two-alternative result type (core/result.hpp:19-103). *)
Inductive result (V E : Type) := RVal (v : V) | RErr (e : E).
Arguments RVal {V E} _. Arguments RErr {V E} _.

(** C++ language (Standard). size_t on the modelled platforms: 64 bits, unsigned, wraps. *)
Definition size_mod : N := 2 ^ 64.
(** C++ language (Standard): size_t addition. *)
Definition sz_add (a b : N) : N := (a + b) mod size_mod.
(** C++ language (Standard): size_t subtraction. *)
Definition sz_sub (a b : N) : N := (a + size_mod - b mod size_mod) mod size_mod.
(** C++ language (Standard): size_t multiplication. *)
Definition sz_mul (a b : N) : N := (a * b) mod size_mod.

(** Model only, no counterpart in the code: list length as a number. *)
Definition lenN {A} (l : list A) : N := N.of_nat (length l).
(** Model only, no counterpart in the code: a prefix of a list. *)
Definition takeN {A} (n : N) (l : list A) : list A := firstn (N.to_nat n) l.
(** Model only, no counterpart in the code: the rest of a list. *)
Definition dropN {A} (n : N) (l : list A) : list A := skipn (N.to_nat n) l.

(** wite/io/encoding.hpp:23-27 endian (std::endian or the library's own enum). *)
Inductive endian := little | big.
(** C++ language (Standard): == of the enum. *)
Definition endian_eqb (a b : endian) : bool :=
  match a, b with little, little | big, big => true | _, _ => false end.

(** C++ language (Standard): conversion to an 8-bit byte. The byte with value [n mod 256]. *)
Definition byte_of_N (n : N) : byte :=
  match Byte.of_N (n mod 256) with Some b => b | None => x00 end.
