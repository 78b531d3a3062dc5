(** C93.  Programs over any number of collections, with moves, see what they would see if each
    name stood for a list of items; nothing is lost. *)
From Coq Require Import List. Import ListNotations.
From Verif Require Import Base Ident_Model IdentMove_Model Coll_Spec IdentMove_Spec IdentMove_Proofs.
Local Open Scope N_scope.

(** [left] says what a standard library leaves in moved-from maps and vectors; [left_empty]: nothing, as the usual ones do. *)
Theorem C93_moves_refine : forall b ops xs p, names_run ops all_empty = Some (xs, p) ->
  exists s, mrun b ops cs_start = (xs, s) /\ cs_lost s = [] /\
    (forall v l, p v = Some l -> ic_iterate b (cs_var s v) = Ok l /\ ic_size (cs_var s v) = lenN l /\
      (forall id, ic_at_id (cs_var s v) id = found (item_with id l)) /\
      (forall i, ic_at_index (cs_var s v) i = found (nth_error l (N.to_nat i)))).
Proof. exact moves_refine. Qed.
Print Assumptions C93_moves_refine.
(** A move hands over all items and leaves every other collection alone.  The source is empty at once with the usual
    libraries, and after clear() with any. *)
Theorem C93_move_transfers : forall b ops xs p v w l m, names_run ops all_empty = Some (xs, p) -> v <> w -> p w = Some m ->
  exists s s' s'', mrun b ops cs_start = (xs, s) /\ mstep b (MMove v w l) s = (None, s') /\
    mstep b (MCall w IClear) s' = (Some (ROk (Ok tt)), s'') /\ cs_lost s' = [] /\ cs_lost s'' = [] /\
    ic_iterate b (cs_var s' v) = ic_iterate b (cs_var s w) /\
    (forall id, ic_at_id (cs_var s' v) id = ic_at_id (cs_var s w) id) /\
    (forall i, ic_at_index (cs_var s' v) i = ic_at_index (cs_var s w) i) /\
    (l = left_empty -> ic_iterate b (cs_var s' w) = Ok [] /\ ic_size (cs_var s' w) = 0) /\
    ic_iterate b (cs_var s'' w) = Ok [] /\ ic_size (cs_var s'' w) = 0 /\
    (forall u, u <> v -> u <> w -> cs_var s' u = cs_var s u) /\
    (forall u, u <> w -> cs_var s'' u = cs_var s' u).
Proof. exact move_transfers. Qed.
Print Assumptions C93_move_transfers.
(** Moving a collection to itself: all items or none with the usual libraries, usable after clear() with any. *)
Theorem C93_move_to_itself : forall b ops xs p v h m, names_run ops all_empty = Some (xs, p) -> p v = Some m ->
  exists s s' s'', mrun b ops cs_start = (xs, s) /\ mstep b (MSelf v h) s = (None, s') /\
    mstep b (MCall v IClear) s' = (Some (ROk (Ok tt)), s'') /\ cs_lost s' = [] /\ cs_lost s'' = [] /\
    match h with
    | Keeps => ic_iterate b (cs_var s' v) = Ok m
    | Empties => ic_iterate b (cs_var s' v) = Ok []
    | Leaves _ => True
    end /\
    ic_iterate b (cs_var s'' v) = Ok [] /\ ic_size (cs_var s'' v) = 0 /\
    (forall u, u <> v -> cs_var s' u = cs_var s u /\ cs_var s'' u = cs_var s u).
Proof. exact self_keeps_or_loses. Qed.
Print Assumptions C93_move_to_itself.
(** Without clear() a moved-from collection cannot be relied on: the standard allows libraries with which reading it is undefined. *)
Theorem C93_moved_from_usable_refuted : forall b, exists l it al xs s,
  names_run [MCall 0 (IInsert it al); MMove 1 0 l] all_empty <> None /\
  mrun b [MCall 0 (IInsert it al); MMove 1 0 l; MCall 0 IIter] cs_start = (xs, s) /\ In (Some (RItems UB)) xs.
Proof. exact moved_from_unusable. Qed.
Print Assumptions C93_moved_from_usable_refuted.

Definition an_item (id : N) : item := mk_item id (10 * id).
Definition fits : allocs := mk_allocs true true true.
Example C93_nonvacuous : exists q,
  names_run [MCall 0 (IInsert (an_item 1) fits); MCall 1 (IInsert (an_item 2) fits); MMove 1 0 left_empty; MCall 1 IIter; MCall 0 IIter;
             MCall 0 (IInsert (an_item 3) fits); MCall 1 (IAtId 2); MCall 0 IIter; MSelf 0 Keeps; MCall 0 ISize; MSelf 0 Empties; MCall 0 IIter; MRenew 1; MCall 1 ISize] all_empty
  = Some ([Some (ROk (Ok tt)); Some (ROk (Ok tt)); None; Some (RItems (Ok [an_item 1])); Some (RItems (Ok []));
           Some (ROk (Ok tt)); Some (RItem (Throw out_of_range)); Some (RItems (Ok [an_item 3])); None; Some (RNum 1); None; Some (RItems (Ok [])); None; Some (RNum 0)], q).
Proof. eexists. reflexivity. Qed.
(** A library that leaves keys and pointers behind: the source is moved, cleared and used again. *)
Example C93_nonvacuous_2 : exists q,
  names_run [MCall 0 (IInsert (an_item 1) fits); MCall 0 (IInsert (an_item 2) fits); MMove 1 0 (mk_left [(1, 7)] [0; 1]); MMove 2 0 (mk_left [] [5]);
             MCall 0 IClear; MCall 0 (IInsert (an_item 3) fits); MCall 0 IIter; MSelf 1 (Leaves (mk_left [(2, 1); (4, 9)] [1; 3])); MCall 1 IClear; MMove 1 0 left_empty; MCall 1 IIter] all_empty
  = Some ([Some (ROk (Ok tt)); Some (ROk (Ok tt)); None; None; Some (ROk (Ok tt)); Some (ROk (Ok tt)); Some (RItems (Ok [an_item 3]));
           None; Some (ROk (Ok tt)); None; Some (RItems (Ok [an_item 3]))], q) /\ q 1 = Some [an_item 3] /\ q 2 = None.
Proof. eexists. split; [reflexivity|]. split; reflexivity. Qed.
