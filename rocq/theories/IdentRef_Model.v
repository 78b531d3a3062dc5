(** Model of the references that identifiable_item_collection hands out. *)
From Coq Require Import List. Import ListNotations.
From Verif Require Import Base Iter_Model Ident_Model.
Local Open Scope N_scope.

(** wite/collections/identifiable_item_collection.hpp:199-205 at(id): the address of the item the reference refers to. *)
Definition ic_ref_id (c : coll) (id : N) : outcome N :=
  match lookup id (c_items c) with Some a => Ok a | None => Throw out_of_range end.
(** wite/collections/identifiable_item_collection.hpp:207-213 at(index), likewise. *)
Definition ic_ref_index (c : coll) (i : N) : outcome N :=
  if lenN (c_order c) <=? i then Throw out_of_range
  else match nth_error (c_order c) (N.to_nat i) with Some a => Ok a | None => UB end.
(** C++ language (Standard). Reading through a reference: undefined if the item is gone.  The model never gives a
    new item the address of an old one. *)
Definition read_ref (c : coll) (a : N) : outcome item := deref c a.
