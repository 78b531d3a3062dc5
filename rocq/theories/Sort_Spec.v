(** Insertion sort on the iterators of a static_vector. *)
From Coq Require Import List ZArith. Import ListNotations.
From Verif Require Import Base Algo_Spec.

Section Sort.
Context {V : Type} (less : V -> V -> bool).
(** for (; j != first; --j) { k = j; --k; if (!( *j < *k)) break; std::iter_swap(j, k); }   with iterator 3 for j, 4 for k *)
Fixpoint sink (rounds : nat) (next : algo V) : algo V :=
  match rounds with
  | O => next
  | S n => Same 3 0 (fun e => if e then next else
             Copy 4 3 (Back 4 (Get 3 (fun x => Get 4 (fun y =>
               if less x y then Put 3 y (Put 4 x (Copy 3 4 (sink n next))) else next)))))
  end.
(** for (i = first; i != last; ++i) { j = i; ... }   with iterator 2 for i *)
Fixpoint sort_from (rounds size : nat) : algo V :=
  match rounds with
  | O => Done
  | S n => Same 2 1 (fun e => if e then Done else Copy 3 2 (sink size (Step 2 (sort_from n size))))
  end.
Definition insertion_sort (size : nat) : algo V := Copy 2 0 (sort_from (S size) size).
(** [less] is a strict weak order. *)
Definition strict_weak : Prop :=
  (forall x y, less x y = true -> less y x = false) /\ (forall x y z, less y x = false -> less z y = false -> less z x = false).
(** No later element is less than an earlier one. *)
Definition in_order (l : list V) : Prop := forall i j x y, (i < j)%nat -> nth_error l i = Some x -> nth_error l j = Some y -> less y x = false.
(** Neither is less than the other. *)
Definition equivalent (x y : V) : bool := negb (less x y) && negb (less y x).
(** Equivalent elements are in the same order in both lists. *)
Definition same_order (l l' : list V) : Prop := forall z, filter (equivalent z) l = filter (equivalent z) l'.
End Sort.
