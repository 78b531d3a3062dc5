(** C105: iterators of a collection that are kept while it changes. *)
From Coq Require Import List. Import ListNotations.
From Verif Require Import Base Iter_Model Ident_Model Coll_Spec IdentIter_Model IdentIter_Spec IdentIter_Proofs.
Local Open Scope N_scope.

(** C105: every program of calls and uses of kept iterators that meets the preconditions shows
    what it shows for a list and indices into it, and leaves the collection with the items of
    the list.  A debug build fails exactly at the operations [k_reported] names. *)
Theorem C105_builds_partial : forall (b : build) (ops : list kop) (xs : list kobs) (t : spots),
  spot_run b ops nothing = Some (xs, t) ->
  exists s, k_run b ops k_start = (xs, s) /\ ic_iterate b (kp_coll s) = Ok (fst t) /\ ic_size (kp_coll s) = lenN (fst t).
Proof. exact builds. Qed.
Print Assumptions C105_builds_partial.

(** C105: whatever calls are made, an iterator that may still be used refers to the item it
    referred to before, and reads what at(id) returns for it. *)
Theorem C105_same_item_partial : forall (b : build) (ops : list kop) (cs : list (iop * bool)) (k : N) (y : item) (xs : list kobs) (t : spots),
  spot_run b (ops ++ KRead k :: calls cs) nothing = Some (xs, t) ->
  nth_error xs (length ops) = Some (KItem (Ok y)) -> snd t k <> None ->
  exists z s, k_run b (ops ++ KRead k :: calls cs ++ [KRead k]) k_start = (xs ++ [KItem (Ok z)], s) /\
    it_id z = it_id y /\ ic_at_id (kp_coll s) (it_id y) = Ok z.
Proof. exact same_item. Qed.
Print Assumptions C105_same_item_partial.

(** C105 is false in general: by the rules of std::vector, using an iterator is undefined after an insertion that moves
    the vector, end() after any insertion or erasure, an iterator after its item was erased,
    and an iterator to an item that is still there after an earlier item was erased. *)
Theorem C105_refuted : forall b : build,
  let ins id moved := KCall (IInsert (mk_item id 0) all_ok) moved in
  let last_of ops := last (fst (k_run b ops k_start)) (KBool Diverge) in
  let three := [ins 1 true; ins 2 true; ins 3 true] in
  last_of (three ++ [KBegin 0; ins 4 true; KRead 0]) = KItem UB /\
  last_of (three ++ [KBegin 0; KEnd 1; ins 4 false; KSame 0 1]) = KBool UB /\
  last_of (three ++ [KBegin 0; KEnd 1; KCall (IErase 3) false; KSame 0 1]) = KBool UB /\
  last_of (three ++ [KBegin 0; KInc 0; KCall (IErase 2) false; KInc 0]) = KMoved UB /\
  last_of (three ++ [KBegin 0; KInc 0; KCall (IErase 1) false; KRead 0]) = KItem UB.
Proof. exact refuted. Qed.
Print Assumptions C105_refuted.

(** C105 is false of debug builds even for iterators that may be used: one made before an
    insertion cannot be moved past the old end. *)
Theorem C105_debug_refuted : forall b : build, b <> Release ->
  let ins id moved := KCall (IInsert (mk_item id 0) all_ok) moved in
  let ops := [ins 1 true; KBegin 0; ins 2 false; KInc 0; KInc 0] in
  (exists xs t, spot_run Release ops nothing = Some (xs, t) /\ last xs (KBool UB) = KMoved (Ok tt)) /\
  last (fst (k_run b ops k_start)) (KBool UB) = KMoved (failure b).
Proof. exact debug_refuted. Qed.
Print Assumptions C105_debug_refuted.

(** Three items; an iterator at the first is kept while the third is erased, a fourth is
    added without moving the vector, the first is replaced through the reference from emplace,
    and is then read, moved and compared. *)
Definition C105_before : list kop :=
  [KCall (IInsertEach [(mk_item 1 10, all_ok); (mk_item 2 20, all_ok); (mk_item 3 30, all_ok)]) true; KBegin 0; KPlus 0 1 1].
Definition C105_calls : list (iop * bool) :=
  [(IErase 3, false); (IInsert (mk_item 4 40) all_ok, false); (IAssignRef 1 (mk_item 1 11), false); (IErase 4, true)].
Example C105_nonvacuous :
  (exists t, spot_run DebugThrow (C105_before ++ KRead 0 :: calls C105_calls ++ [KRead 0; KInc 0; KSame 0 1; KRead 1; KDist 1 0; KInc 1; KRead 0]) nothing =
    Some ([KCalled (ROk (Ok tt)); KMoved (Ok tt); KMoved (Ok tt); KItem (Ok (mk_item 1 10)); KCalled (RBool (Ok true));
           KCalled (ROk (Ok tt)); KCalled (ROk (Ok tt)); KCalled (RBool (Ok true)); KItem (Ok (mk_item 1 11)); KMoved (Ok tt);
           KBool (Ok true); KItem (Ok (mk_item 2 20)); KGap (Ok 0%Z); KMoved (Ok tt); KItem (Ok (mk_item 2 20))], t))
  /\ exists xs t, spot_run Release (C105_before ++ KRead 0 :: calls C105_calls) nothing = Some (xs, t) /\
       nth_error xs (length C105_before) = Some (KItem (Ok (mk_item 1 10))) /\ snd t 0 <> None.
Proof.
  split; [eexists; match goal with |- ?x = _ => let y := eval vm_compute in x in exact (eq_refl y) end|].
  eexists _, _. split; [match goal with |- ?x = _ => let y := eval vm_compute in x in exact (eq_refl y) end|]. split; [reflexivity|vm_compute; discriminate].
Qed.
