(** C100: references to the items of an identifiable_item_collection. *)
From Coq Require Import List. Import ListNotations.
From Verif Require Import Base Iter_Model Ident_Model Coll_Spec IdentRef_Model IdentRef_Spec IdentRef_Proofs.
Local Open Scope N_scope.

(** A reference stays the one at(id) returns, and reads the current item, until a call takes that item out; after a
    call that destroys it, reading or assigning to it is undefined for good, even if an item with the same id is inserted again. *)
Theorem C100_references_stay : forall b ops xs l c, spec_run ops [] = Some (xs, l) -> ic_run b ops ic_empty_coll = (xs, c) ->
  forall id a, ic_ref_id c id = Ok a -> forall more ys l' c', spec_run more l = Some (ys, l') -> ic_run b more c = (ys, c') ->
  (Forall (fun o => ~ removes id o) more -> ic_ref_id c' id = Ok a /\ read_ref c' a = found (item_with id l') /\ has_id id l' = true) /\
  (destroyed_in id more -> read_ref c' a = UB /\ forall it, fst (ic_assign_through c' a it) = UB).
Proof. exact refs_lifetime. Qed.
Print Assumptions C100_references_stay.
(** at(index) and at(id) return references to the same object; different ids to different objects.  There is none for an id
    that is not there or an index beyond the end. *)
Theorem C100_same_object : forall b ops xs l c, spec_run ops [] = Some (xs, l) -> ic_run b ops ic_empty_coll = (xs, c) ->
  (forall i it, nth_error l (N.to_nat i) = Some it -> exists a, ic_ref_index c i = Ok a /\ ic_ref_id c (it_id it) = Ok a /\ read_ref c a = Ok it) /\
  (forall i j a, ic_ref_id c i = Ok a -> ic_ref_id c j = Ok a -> i = j) /\
  (forall id, has_id id l = false -> ic_ref_id c id = Throw out_of_range) /\
  (forall i, lenN l <= i -> ic_ref_index c i = Throw out_of_range).
Proof. exact refs_agree. Qed.
Print Assumptions C100_same_object.
(** The reference emplace returns is the one at(id) returns. *)
Theorem C100_emplace : forall b ops xs l c it al a c', spec_run ops [] = Some (xs, l) -> ic_run b ops ic_empty_coll = (xs, c) -> al_push al = true ->
  ic_emplace b c it al = (Ok a, c') -> ic_ref_id c' (it_id it) = Ok a /\ read_ref c' a = Ok it /\ ic_contains c (it_id it) = false.
Proof. exact emplace_ref. Qed.
Print Assumptions C100_emplace.
(** excise returns the object the reference refers to. *)
Theorem C100_excise : forall b ops xs l c, spec_run ops [] = Some (xs, l) -> ic_run b ops ic_empty_coll = (xs, c) ->
  forall id a, ic_ref_id c id = Ok a -> exists it c', read_ref c a = Ok it /\ ic_excise b c id = (Ok (Some it), c') /\ ic_contains c' id = false.
Proof. exact excise_hands_over. Qed.
Print Assumptions C100_excise.

(** Two items; a third is inserted, the first assigned to and the second erased and inserted again. *)
Definition some_items := [IInsert (mk_item 1 10) all_ok; IInsert (mk_item 2 20) all_ok].
Definition later_calls := [IInsert (mk_item 3 30) all_ok; IAssignRef 1 (mk_item 1 11); IErase 2; IInsert (mk_item 2 21) all_ok].
Example C100_nonvacuous : exists c c' a a2,
  spec_run some_items [] = Some ([ROk (Ok tt); ROk (Ok tt)], [mk_item 1 10; mk_item 2 20]) /\
  snd (ic_run DebugAbort some_items ic_empty_coll) = c /\ ic_ref_id c 1 = Ok a /\ ic_ref_id c 2 = Ok a2 /\
  spec_run later_calls [mk_item 1 10; mk_item 2 20] <> None /\ snd (ic_run DebugAbort later_calls c) = c' /\
  Forall (fun o => ~ removes 1 o) later_calls /\ destroyed_in 2 later_calls /\
  read_ref c' a = Ok (mk_item 1 11) /\ read_ref c' a2 = UB /\ ic_at_id c' 2 = Ok (mk_item 2 21).
Proof.
  do 4 eexists. do 4 (split; [reflexivity|]). split; [discriminate|]. split; [reflexivity|].
  split; [repeat constructor; cbn; try lia; auto|].
  split; [|repeat split]. exists [IInsert (mk_item 3 30) all_ok; IAssignRef 1 (mk_item 1 11)], (IErase 2), [IInsert (mk_item 2 21) all_ok].
  split; [reflexivity|]. split; [repeat constructor; cbn; auto|]. split; [reflexivity|discriminate].
Qed.
