(** Model of programs that hold several identifiable_item_collections and move them. *)
From Coq Require Import List. Import ListNotations.
From Verif Require Import Base Iter_Model Ident_Model.
Local Open Scope N_scope.

Section IdentMove.
Variable b : build.

(** Model only, no counterpart in the code: the collections of a program by name, and the items that no
    collection owns any more although they were never destroyed. *)
Record cstore := mk_cstore { cs_var : N -> coll; cs_lost : list (N * item) }.
(** Model only, no counterpart in the code. *)
Definition cs_set (f : N -> coll) (v : N) (c : coll) : N -> coll := fun w => if w =? v then c else f w.

(** Model only, no counterpart in the code.  [left]: what the map and the vector of a moved-from collection hold; the standard
    promises only that they are valid.  [itself]: what moving a map and a vector to themselves leaves in them. *)
Record left := mk_left { lf_map : list (N * N); lf_order : list N }.
(** Model only, no counterpart in the code: moved-from maps and vectors of the usual standard libraries. *)
Definition left_empty : left := mk_left [] [].
(** Model only, no counterpart in the code: all items (MSVC), none (libstdc++, libc++), or whatever the standard allows. *)
Inductive itself := Keeps | Empties | Leaves (l : left).

(** Model only, no counterpart in the code: a call of a member, v = std::move(w) with another collection w,
    v = std::move(v), and the end of the life of v followed by a new empty collection of the same name.
    [l] and [h] are oracles. *)
Inductive mop := MCall (v : N) (o : iop) | MMove (v w : N) (l : left) | MSelf (v : N) (h : itself) | MRenew (v : N).

(** wite/collections/identifiable_item_collection.hpp:60-61 the source of a move: every item now belongs to the target, so what is left in
    the map are null pointers.  Simplified: a pointer left in the vector that still leads to an item of the target is not told
    from one that leads nowhere; following either is [UB]. *)
Definition moved_from (l : left) : coll := mk_coll (lf_map l) (lf_order l) [] 0.
(** wite/collections/identifiable_item_collection.hpp:61 a collection moved to itself: an item that the map no longer owns is destroyed. *)
Definition moved_to_itself (h : itself) (c : coll) : coll :=
  match h with
  | Keeps => c
  | Empties => ic_empty_coll
  | Leaves l => mk_coll (lf_map l) (lf_order l) (filter (fun x => existsb (fun y => snd y =? fst x) (lf_map l)) (c_heap c)) (c_next c)
  end.

(** wite/collections/identifiable_item_collection.hpp:60-61 move operations and the implicit destructor:
    the items the old target owns are destroyed, then map and vector change owner. *)
Definition mstep (o : mop) (s : cstore) : option iobs * cstore :=
  match o with
  | MCall v o => let '(x, c) := ic_step b o (cs_var s v) in (Some x, mk_cstore (cs_set (cs_var s) v c) (cs_lost s))
  | MMove v w l =>
      let '(target, _) := ic_move (cs_var s w) in
      (None, mk_cstore (cs_set (cs_set (cs_var s) v target) w (moved_from l)) (cs_lost s ++ c_heap (ic_clear (cs_var s v))))
  | MSelf v h =>
      (None, mk_cstore (cs_set (cs_var s) v (moved_to_itself h (cs_var s v)))
               (cs_lost s ++ match h with Keeps => [] | _ => c_heap (ic_clear (cs_var s v)) end))
  | MRenew v =>
      (None, mk_cstore (cs_set (cs_var s) v ic_empty_coll) (cs_lost s ++ c_heap (ic_clear (cs_var s v))))
  end.
(** Model only, no counterpart in the code: a program. *)
Fixpoint mrun (ops : list mop) (s : cstore) : list (option iobs) * cstore :=
  match ops with
  | [] => ([], s)
  | o :: ops' => let '(x, s1) := mstep o s in let '(xs, s2) := mrun ops' s1 in (x :: xs, s2)
  end.
(** wite/collections/identifiable_item_collection.hpp:59 at the start every collection is default constructed *)
Definition cs_start : cstore := mk_cstore (fun _ => ic_empty_coll) [].
End IdentMove.
