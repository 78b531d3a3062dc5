(** C54-C62, C78: collections. *)
From Coq Require Import List. Import ListNotations.
From Verif Require Import Base Iter_Model Sv_Model Lookup_Model Ident_Model Coll_Spec Sv_Proofs SvLife_Proofs Ident_Proofs Coll_PropLemmas.

(** C54.  Programs over any number of static_vectors of one capacity see exactly what
    they would see if the vectors were lists ([vec_run]): every result, and the contents
    at the end. *)
Theorem C54_bounded_list : forall (V : Type) b cap (moved : V -> V) veq ops xs q, cap < 2 ^ 63 ->
  vec_run cap moved veq ops (fun _ => []) = Some (xs, q) ->
  exists p, sv_run b cap moved veq ops (sv_start cap) = (xs, p) /\ forall i, shows cap (p i) (q i).
Proof. exact @sv_refines. Qed.
Print Assumptions C54_bounded_list.
Example C54_nonvacuous : exists q, vec_run 3 (fun x => x) N.eqb
    [SPush 0 5 None; SPush 0 6 None; SPush 0 7 None; SPush 0 8 None; SClear 0; SAt 0 0; SPush 0 9 None; SInit 1 [1; 2] None; SSwap 0 1;
     SResize 1 3 4 (Some 1); SResize 1 3 4 None; SWriteAt 1 1 0; SIter 0; SRiter 1; SBack 1; SEq 0 1; SMove 2 1; SIdx 2 0; SSize 2; SMove 2 2; SIter 2]
    (fun _ => []) =
  Some ([ODone (Ok tt); ODone (Ok tt); ODone (Ok tt); ODone (Throw length_error); ODone (Ok tt); OVal (Throw out_of_range); ODone (Ok tt); ODone (Ok tt);
         ODone (Ok tt); ODone (Throw user_exn); ODone (Ok tt); ODone (Ok tt); OList (Ok [1; 2]); OList (Ok [4; 0; 9]); OVal (Ok 4); OBool (Ok false);
         ODone (Ok tt); OVal (Ok 9); ONum 3; ODone (Ok tt); OList (Ok [9; 0; 4])], q) /\ q 0 = [1; 2] /\ q 2 = [9; 0; 4].
Proof. eexists. split; [vm_compute; reflexivity|]. split; reflexivity. Qed.

(** C55.  static_vector(size) has no elements at all: reading any position below size()
    is undefined, and size() can exceed the capacity. *)
Theorem C55_holds_size_refuted : exists v : svec N, v = sv_of_size 4 3 /\ sv_size v = 3 /\ sv_at v 0 = UB /\
  sv_size (@sv_of_size N 4 9) = 9 /\ sv_capacity (@sv_of_size N 4 9) = 4.
Proof. exact (ex_intro _ (sv_of_size 4 3) (conj eq_refl (conj eq_refl (conj eq_refl (conj eq_refl eq_refl))))). Qed.
Print Assumptions C55_holds_size_refuted.
Theorem C55_sized_constructor_partial : forall (V : Type) cap n, sv_size (@sv_of_size V cap n) = n mod 256 /\
  (forall k, k < n mod 256 -> sv_at (@sv_of_size V cap n) k = UB) /\
  (forall k, n mod 256 <= k -> sv_at (@sv_of_size V cap n) k = Throw out_of_range).
Proof. exact @of_size_exact. Qed.
Print Assumptions C55_sized_constructor_partial.
Example C55_nonvacuous : 0 < 300 mod 256 /\ 300 mod 256 <= 44. Proof. split; [reflexivity|discriminate]. Qed.

(** C56.  In every slot of every vector, after the vector's destructor, elements were
    constructed and destroyed alternately and none is left alive, whatever the program
    did (including copies that throw) ... *)
Theorem C56_destroyed_exactly_once : forall (V : Type) b cap (moved : V -> V) veq ops i s,
  In s (sv_slots (sv_destroy (snd (sv_run b cap moved veq ops (sv_start cap)) i))) -> all_destroyed s.
Proof. exact @exactly_once. Qed.
Print Assumptions C56_destroyed_exactly_once.
(** ... at any moment a slot's optional is engaged iff an element is alive in it ... *)
Theorem C56_engaged_iff_alive : forall (V : Type) b cap (moved : V -> V) veq ops i s,
  In s (sv_slots (snd (sv_run b cap moved veq ops (sv_start cap)) i)) ->
  (sl_val s <> None -> alive s) /\ (sl_val s = None -> all_destroyed s).
Proof. exact @engaged_alive. Qed.
Print Assumptions C56_engaged_iff_alive.
(** ... and without clear() and throwing copies exactly size() elements are alive; but
    clear() destroys nothing. *)
Theorem C56_live_is_size : forall (V : Type) b cap (moved : V -> V) veq ops i, forallb plain_op ops = true ->
  live_elements (snd (sv_run b cap moved veq ops (sv_start cap)) i) = sv_size (snd (sv_run b cap moved veq ops (sv_start cap)) i).
Proof. exact @live_is_size. Qed.
Print Assumptions C56_live_is_size.
Theorem C56_clear_keeps_elements_alive :
  let p := snd (sv_run Release 4 (fun x : N => x) N.eqb [SPush 0 1 None; SPush 0 2 None; SClear 0] (sv_start 4)) in
  sv_size (p 0) = 0 /\ live_elements (p 0) = 2.
Proof. exact clear_keeps_elements. Qed.
Print Assumptions C56_clear_keeps_elements_alive.
Example C56_nonvacuous :
  let p := snd (sv_run Release 2 (fun x : N => x) N.eqb [SPush 0 1 None; SResize 0 0 0 None; SPush 0 2 None; SSwap 0 1] (sv_start 2)) in
  map (fun s => rev (sl_hist s)) (sv_slots (sv_destroy (p 0))) = [completed 2; completed 0] /\
  map (fun s => rev (sl_hist s)) (sv_slots (p 1)) = [[ev_ctor]; []] /\ live_elements (p 1) = 1.
Proof. repeat split; reflexivity. Qed.

(** C78.  If an operation other than a copy assignment throws (capacity exceeded, bad
    position, or a copy of an element that throws), every vector is as it was ... *)
Theorem C78_strong_guarantee_partial : forall (V : Type) b cap (moved : V -> V) veq ops xs q o e, cap < 2 ^ 63 ->
  vec_run cap moved veq ops (fun _ => []) = Some (xs, q) -> vec_step cap moved veq o q <> None -> (forall i j k, o <> SCopy i j (Some k)) ->
  exists p, sv_run b cap moved veq ops (sv_start cap) = (xs, p) /\
    (fst (sv_step b cap moved veq o p) = ODone (Throw e) -> forall i, shows cap (snd (sv_step b cap moved veq o p) i) (q i)).
Proof. exact throws_unchanged. Qed.
Print Assumptions C78_strong_guarantee_partial.
(** ... if the copy of element [k] of the source throws in a copy assignment, the elements
    before it have been copied as far as the target had elements, and all exist ... *)
Theorem C78_copy_assignment_partial : forall (V : Type) b cap (moved : V -> V) veq ops xs q i j k, cap < 2 ^ 63 ->
  vec_run cap moved veq ops (fun _ => []) = Some (xs, q) -> k < lenN (q j) ->
  exists p p', sv_run b cap moved veq ops (sv_start cap) = (xs, p) /\
    sv_step b cap moved veq (SCopy i j (Some k)) p = (ODone (Throw user_exn), p') /\
    shows cap (p' i) (takeN (lenN (q i)) (takeN k (q j) ++ dropN k (q i))) /\ forall n, n <> i -> shows cap (p' n) (q n).
Proof. exact copy_throws. Qed.
Print Assumptions C78_copy_assignment_partial.
Example C78_nonvacuous : exists xs q, vec_run 3 (fun x => x) N.eqb [SPush 0 5 None] (fun _ => []) = Some (xs, q) /\
  vec_step 3 (fun x => x) N.eqb (SResize 0 3 6 (Some 1)) q = Some (ODone (Throw user_exn), q) /\ q 0 = [5].
Proof. do 2 eexists. split; [vm_compute; reflexivity|]. split; reflexivity. Qed.
Example C78_copy_nonvacuous : exists xs q, vec_run 3 (fun x => x) N.eqb [SInit 0 [1; 2] None; SInit 1 [7; 8; 9] None; SCopy 0 1 (Some 1)] (fun _ => []) = Some (xs, q) /\
  q 0 = [7; 2] /\ q 1 = [7; 8; 9].
Proof. do 2 eexists. split; [vm_compute; reflexivity|]. split; reflexivity. Qed.
(** ... but one that throws while copying an element left beyond the source's size() can
    leave an element below size() that does not exist. *)
Theorem C78_copy_assignment_refuted : exists p, sv_run Release 4 (fun x : N => x) N.eqb
    [SPush 0 1 None; SPush 0 2 None; SClear 0; SPush 0 3 None; SResize 0 0 0 None; SPush 1 7 None; SPush 1 8 None;
     SCopy 1 0 (Some 0); SSize 1; SAt 1 0] (sv_start 4) =
  (repeat (ODone (Ok tt)) 7 ++ [ODone (Throw user_exn); ONum 2; OVal UB], p).
Proof. exact (ex_intro _ _ copy_hole). Qed.
Print Assumptions C78_copy_assignment_refuted.

(** C57.  at() and with() find the first match ... *)
Theorem C57_construction : forall (K V : Type) d (es : list (K * V)), lk_make d es = es.
Proof. exact @make_spec. Qed.
Print Assumptions C57_construction.
Theorem C57_size : forall (K V : Type) d (es : list (K * V)), lk_size (lk_make d es) = lenN es.
Proof. exact @make_size. Qed.
Print Assumptions C57_size.
Theorem C57_at_first : forall (K V : Type) keq t k (v : V), @lk_at K V keq t k = Ok v <-> first_with_key keq t k v.
Proof. exact @at_first. Qed.
Print Assumptions C57_at_first.
Theorem C57_at_throws : forall (K V : Type) keq (t : list (K * V)) k,
  lk_at keq t k = Throw out_of_range <-> forall x, In x t -> keq (fst x) k = false.
Proof. exact @at_throws. Qed.
Print Assumptions C57_at_throws.
Theorem C57_with_first : forall (K V : Type) veq t v (k : K), @lk_with K V veq t v = Ok k <-> first_with_value veq t v k.
Proof. exact @with_first. Qed.
Print Assumptions C57_with_first.
Theorem C57_with_throws : forall (K V : Type) veq (t : list (K * V)) v,
  lk_with veq t v = Throw out_of_range <-> forall x, In x t -> veq (snd x) v = false.
Proof. exact @with_throws. Qed.
Print Assumptions C57_with_throws.
(** ... are inverse if keys and values are unique ... *)
Theorem C57_inverse : forall (K V : Type) (keq : K -> K -> bool) (veq : V -> V -> bool) (t : list (K * V)),
  reflects keq -> reflects veq -> NoDup (map fst t) -> NoDup (map snd t) ->
  forall k v, lk_at keq t k = Ok v <-> lk_with veq t v = Ok k.
Proof. exact @inverse. Qed.
Print Assumptions C57_inverse.
(** ... and writing through at() changes that entry only. *)
Theorem C57_write : forall (K V : Type) keq (t : list (K * V)) k v t', lk_at_write keq t k v = Ok t' ->
  exists t1 k' v0 t2, t = t1 ++ (k', v0) :: t2 /\ t' = t1 ++ (k', v) :: t2 /\ keq k' k = true /\
    (forall x, In x t1 -> keq (fst x) k = false) /\ lk_at keq t k = Ok v0 /\ lk_at keq t' k = Ok v.
Proof. exact @at_write. Qed.
Print Assumptions C57_write.
Theorem C57_write_throws : forall (K V : Type) keq (t : list (K * V)) k v,
  lk_at_write keq t k v = Throw out_of_range <-> lk_at keq t k = Throw out_of_range.
Proof. exact @at_write_throws. Qed.
Print Assumptions C57_write_throws.
Example C57_nonvacuous : lk_at N.eqb (lk_make (0, 0) [(1, 10); (2, 20); (1, 30)]) 1 = Ok 10 /\
  lk_with N.eqb (lk_make (0, 0) [(1, 10); (2, 20)]) 20 = Ok 2 /\ lk_at_write N.eqb [(1, 10); (2, 20)] 2 21 = Ok [(1, 10); (2, 21)] /\
  reflects N.eqb /\ NoDup (map fst [(1, 10); (2, 20)]) /\ NoDup (map snd [(1, 10); (2, 20)]).
Proof.
  repeat split; try reflexivity; try apply N.eqb_eq; cbn; repeat constructor; cbn; intuition discriminate.
Qed.

(** C58.  Programs see exactly what they would see if the collection were a list of items
    ([spec_run]), and the ids in that list are distinct.  The programs are those that do
    not change an id through the reference emplace returns (C59) and in which the
    vector's allocation does not fail after the map's (C60). *)
Theorem C58_insertion_ordered_map : forall b ops xs l, spec_run ops [] = Some (xs, l) ->
  exists c, ic_run b ops ic_empty_coll = (xs, c) /\
    (forall id, ic_at_id c id = found (item_with id l)) /\
    (forall i, ic_at_index c i = found (nth_error l (N.to_nat i))) /\
    ic_iterate b c = Ok l /\ ic_size c = lenN l /\ (forall id, ic_contains c id = has_id id l).
Proof. exact coll_refines. Qed.
Print Assumptions C58_insertion_ordered_map.
Theorem C58_distinct_ids : forall (b : build) ops xs l, spec_run ops [] = Some (xs, l) -> NoDup (map it_id l).
Proof. exact spec_ids_distinct. Qed.
Print Assumptions C58_distinct_ids.
Theorem C58_no_leak : forall b ops xs l, spec_run ops [] = Some (xs, l) ->
  forall c, ic_run b ops ic_empty_coll = (xs, c) -> forall a, lookup a (c_heap c) <> None <-> In a (c_order c).
Proof. exact no_leak. Qed.
Print Assumptions C58_no_leak.
Example C58_nonvacuous : spec_run
    [IInsert it3 all_ok; ITryInsert it1 all_ok; ITryInsertEach [(it1, all_ok); (it2, all_ok)]; IInsert it2 all_ok; IEmplace it1 all_ok;
     IIter; IAtId 1; IAtIndex 1; IErase 1; IExcise 7; IExcise 3; IContains 3; IInsert it1 (mk_allocs true false true); IEmplace it1 all_ok;
     IAssignRef 1 (mk_item 1 99); IRiter] [] =
  Some ([ROk (Ok tt); RBool (Ok true); RBools (Ok [false; true]); ROk (Throw logic_error); ROk (Throw logic_error);
         RItems (Ok [it3; it1; it2]); RItem (Ok it1); RItem (Ok it1); RBool (Ok true); RMaybe (Ok None); RMaybe (Ok (Some it3)); RBool (Ok false);
         ROk (Throw bad_alloc); ROk (Ok tt); ROk (Ok tt); RItems (Ok [mk_item 1 99; it2])], [it2; mk_item 1 99]).
Proof. reflexivity. Qed.

(** C59.  Assigning a different id through the reference emplace returns breaks the
    collection: at(1) returns an item with id 2 ... *)
Theorem C59_assign_id_refuted : exists c, ic_run DebugAbort
    [IEmplace it1 all_ok; IAssignRef 1 (mk_item 2 10)] ic_empty_coll = ([ROk (Ok tt); ROk (Ok tt)], c) /\
  ic_at_id c 1 = Ok (mk_item 2 10) /\ ic_contains c 2 = false.
Proof. exact emplace_breaks. Qed.
Print Assumptions C59_assign_id_refuted.
(** ... and erase can then destroy an item the collection still points to. *)
Theorem C59_dangling_refuted : exists c, ic_run Release
    [IEmplace it1 all_ok; IInsert it2 all_ok; IAssignRef 1 (mk_item 2 10); IErase 2] ic_empty_coll =
    ([ROk (Ok tt); ROk (Ok tt); ROk (Ok tt); RBool (Ok true)], c) /\ ic_iterate Release c = UB /\ ic_size c = 1.
Proof. exact emplace_dangles. Qed.
Print Assumptions C59_dangling_refuted.
(** With assignments that keep the id, at(id) always returns an item with that id. *)
Theorem C59_same_id_partial : forall b ops xs l, spec_run ops [] = Some (xs, l) ->
  forall c, ic_run b ops ic_empty_coll = (xs, c) -> forall id it, ic_at_id c id = Ok it -> it_id it = id.
Proof. exact at_id_has_id. Qed.
Print Assumptions C59_same_id_partial.

(** C60.  insert(items...) with a duplicate throws after inserting the items before it ... *)
Theorem C60_several_items_refuted : exists c c', ic_run DebugAbort [IInsert it1 all_ok] ic_empty_coll = ([ROk (Ok tt)], c) /\
  ic_insert_each DebugAbort c [(it2, all_ok); (it3, all_ok); (it1, all_ok)] = (Throw logic_error, c') /\
  ic_iterate DebugAbort c = Ok [it1] /\ ic_iterate DebugAbort c' = Ok [it1; it2; it3].
Proof. exact insert_each_not_atomic. Qed.
Print Assumptions C60_several_items_refuted.
(** ... exactly those, for every list of items ... *)
Theorem C60_prefix_inserted_partial : forall b ops ys l xs, spec_run ops [] = Some (ys, l) -> Forall (fun x => snd x = all_ok) xs ->
  exists c c', ic_run b ops ic_empty_coll = (ys, c) /\
    ic_insert_each b c xs = (if lenN (fresh_prefix l (map fst xs)) =? lenN xs then Ok tt else Throw logic_error, c') /\
    ic_iterate b c' = Ok (l ++ fresh_prefix l (map fst xs)).
Proof. exact insert_each_prefix. Qed.
Print Assumptions C60_prefix_inserted_partial.
(** ... a failed allocation of the vector leaves the item in the map but not in the order:
    contained but not iterated, not erasable, and excise is undefined ... *)
Theorem C60_allocation_refuted : exists c c', ic_run Release [IInsert it1 all_ok] ic_empty_coll = ([ROk (Ok tt)], c) /\
  ic_insert Release c it2 (mk_allocs true true false) = (Throw bad_alloc, c') /\
  ic_contains c' 2 = true /\ ic_size c' = 2 /\ ic_iterate Release c' = Ok [it1] /\
  fst (ic_erase c' 2) = Ok false /\ fst (ic_excise Release c' 2) = UB /\ fst (ic_excise DebugAbort c' 2) = Terminate /\
  fst (ic_insert DebugAbort c' it3 all_ok) = Terminate.
Proof. exact push_failure. Qed.
Print Assumptions C60_allocation_refuted.
(** ... and any other failure of a single insert, try_insert or emplace changes nothing. *)
Theorem C60_single_item_partial : forall b ops ys l it al, spec_run ops [] = Some (ys, l) -> al_push al = true ->
  forall c, ic_run b ops ic_empty_coll = (ys, c) ->
  forall e c', (ic_insert b c it al = (Throw e, c') \/ ic_try_insert b c it al = (Throw e, c') \/ ic_emplace b c it al = (Throw e, c')) ->
  ic_iterate b c' = Ok l /\ ic_size c' = lenN l /\ (forall id, ic_contains c' id = has_id id l) /\ (forall id, ic_at_id c' id = ic_at_id c id).
Proof. exact single_insert_atomic. Qed.
Print Assumptions C60_single_item_partial.
Example C60_nonvacuous : fresh_prefix [it1] [it2; it3; it1; it2] = [it2; it3] /\
  spec_run [IInsert it1 all_ok] [] = Some ([ROk (Ok tt)], [it1]) /\
  exists c c', ic_run Release [IInsert it1 all_ok] ic_empty_coll = ([ROk (Ok tt)], c) /\
    ic_insert Release c it2 (mk_allocs true false true) = (Throw bad_alloc, c').
Proof. split; [reflexivity|]. split; [reflexivity|]. do 2 eexists. split; vm_compute; reflexivity. Qed.

(** C61.  Iteration visits the pointees in order, forwards and backwards ... *)
Theorem C61_iteration : forall (V : Type) (arr : list (option V)) b (vs : list V) rest parent, arr = map Some vs ++ rest ->
  di_walk b arr (length vs) (di_begin_of parent (lenN vs)) (di_end_of parent (lenN vs)) = Ok vs /\
  di_rwalk b arr (length vs) (di_end_of parent (lenN vs)) (di_begin_of parent (lenN vs)) = Ok (rev vs).
Proof. exact @walks. Qed.
Print Assumptions C61_iteration.
Theorem C61_deref : forall (V : Type) (arr : list (option V)) vs rest parent p v, arr = map Some vs ++ rest -> nth_error vs p = Some v ->
  di_deref arr (at_pos parent (lenN vs) (Z.of_nat p)) = Ok v.
Proof. exact @deref_inside. Qed.
Print Assumptions C61_deref.
(** ... differences and comparisons are those of the positions; between containers they
    are reported ... *)
Theorem C61_relations : forall b parent n p q,
  di_diff b (at_pos parent n p) (at_pos parent n q) = Ok (p - q)%Z /\
  di_cmp b (at_pos parent n p) (at_pos parent n q) = Ok (Z.compare p q) /\
  (di_eq (at_pos parent n p) (at_pos parent n q) = true <-> p = q).
Proof. exact relations. Qed.
Print Assumptions C61_relations.
Theorem C61_other_container : forall b pa pb n m p q, debug b -> pa <> pb ->
  assertion_fails b (di_diff b (at_pos pa n p) (at_pos pb m q)) /\ assertion_fails b (di_cmp b (at_pos pa n p) (at_pos pb m q)).
Proof. exact other_container. Qed.
Print Assumptions C61_other_container.
(** ... in a release build every move inside the array is exact ... *)
Theorem C61_release_arithmetic : forall (V : Type) (arr : list (option V)) parent n p off, (0 <= p + off <= Z.of_N (lenN arr))%Z ->
  di_add_assign Release arr (at_pos parent n p) off = Ok (at_pos parent n (p + off)) /\
  di_add Release arr (at_pos parent n p) off = Ok (at_pos parent n (p + off)) /\
  di_sub_assign Release arr (at_pos parent n p) (- off) = Ok (at_pos parent n (p + off)) /\
  di_sub Release arr (at_pos parent n p) (- off) = Ok (at_pos parent n (p + off)) /\
  (off = 1 -> di_inc Release arr (at_pos parent n p) = Ok (at_pos parent n (p + off)))%Z /\
  (off = -1 -> di_dec Release arr (at_pos parent n p) = Ok (at_pos parent n (p + off)))%Z.
Proof. exact @release_arith. Qed.
Print Assumptions C61_release_arithmetic.
(** ... in a debug build ++ and -- are allowed exactly inside the range ... *)
Theorem C61_debug_steps : forall (V : Type) (arr : list (option V)) b parent n p, debug b -> n <= lenN arr -> (0 <= p <= Z.of_N n)%Z ->
  (if (p <? Z.of_N n)%Z then di_inc b arr (at_pos parent n p) = Ok (at_pos parent n (p + 1))
   else assertion_fails b (di_inc b arr (at_pos parent n p))) /\
  (if (0 <? p)%Z then di_dec b arr (at_pos parent n p) = Ok (at_pos parent n (p - 1))
   else assertion_fails b (di_dec b arr (at_pos parent n p))).
Proof. exact @debug_step. Qed.
Print Assumptions C61_debug_steps.
(** ... but +=, -=, + and - only allow a result strictly before the end ... *)
Theorem C61_debug_jumps_partial : forall (V : Type) (arr : list (option V)) b parent n p off, debug b -> n <= lenN arr ->
  let it := at_pos parent n p in
  (if (0 <=? p + off)%Z && (p + off <? Z.of_N n)%Z
   then di_add_assign b arr it off = Ok (at_pos parent n (p + off)) /\ di_add b arr it off = Ok (at_pos parent n (p + off)) /\
        di_sub_assign b arr it (- off) = Ok (at_pos parent n (p + off)) /\ di_sub b arr it (- off) = Ok (at_pos parent n (p + off))
   else assertion_fails b (di_add_assign b arr it off) /\ assertion_fails b (di_add b arr it off) /\
        assertion_fails b (di_sub_assign b arr it (- off)) /\ assertion_fails b (di_sub b arr it (- off))).
Proof. exact @debug_jump. Qed.
Print Assumptions C61_debug_jumps_partial.
(** ... so begin() + size() fails an assertion although it is end() ... *)
Theorem C61_end_by_arithmetic_refuted : exists (v : svec N), sv_iterate DebugAbort v = Ok [1; 2; 3] /\
  di_add DebugAbort (sv_raw v) (di_begin_of 0 3) 3 = Terminate /\ di_add DebugThrow (sv_raw v) (di_begin_of 0 3) 3 = Throw logic_error /\
  di_add Release (sv_raw v) (di_begin_of 0 3) 3 = Ok (di_end_of 0 3).
Proof. exact end_by_arithmetic_ex. Qed.
Print Assumptions C61_end_by_arithmetic_refuted.
Theorem C61_end_never_reached_partial : forall (V : Type) (arr : list (option V)) b parent n p, debug b -> n <= lenN arr -> (0 <= p <= Z.of_N n)%Z ->
  assertion_fails b (di_add b arr (at_pos parent n p) (Z.of_N n - p)) /\
  assertion_fails b (di_add_assign b arr (at_pos parent n p) (Z.of_N n - p)) /\
  di_add Release arr (at_pos parent n p) (Z.of_N n - p) = Ok (di_end_of parent n).
Proof. exact end_by_arithmetic. Qed.
Print Assumptions C61_end_never_reached_partial.
(** ... it[n] is exact for n >= 0 inside the range and reported otherwise, so a valid
    negative index fails an assertion ... *)
Theorem C61_index_partial : forall (V : Type) (arr : list (option V)) b parent n p off, debug b -> (0 <= p)%Z ->
  (if (0 <=? off)%Z && (p + off <? Z.of_N n)%Z
   then forall vs rest, arr = map Some vs ++ rest -> lenN vs = n ->
     exists v, nth_error vs (Z.to_nat (p + off)) = Some v /\ di_index b arr (at_pos parent n p) off = Ok v
   else assertion_fails b (di_index b arr (at_pos parent n p) off)).
Proof. exact @index_exact. Qed.
Print Assumptions C61_index_partial.
Theorem C61_negative_index_refuted : exists (v : svec N), sv_iterate DebugAbort v = Ok [1; 2; 3] /\
  di_index Release (sv_raw v) (at_pos 0 3 2) (-1) = Ok 2 /\ di_index DebugAbort (sv_raw v) (at_pos 0 3 2) (-1) = Terminate.
Proof. exact negative_index_ex. Qed.
Print Assumptions C61_negative_index_refuted.
(** ... and dereferencing end() is not reported: it is undefined or reads a dead element. *)
Theorem C61_deref_end_refuted :
  let p := snd (sv_run Release 4 (fun x => x) N.eqb [SPush 0 1 None; SPush 1 2 None; SClear 1] (sv_start 4)) in
  di_deref (sv_raw (p 0)) (di_end_of 0 (sv_size (p 0))) = UB /\ di_deref (sv_raw (p 1)) (di_end_of 1 (sv_size (p 1))) = Ok 2 /\ sv_size (p 1) = 0.
Proof. exact deref_end_ex. Qed.
Print Assumptions C61_deref_end_refuted.
Example C61_nonvacuous : let arr := map Some [4; 5; 6] ++ [None] in debug DebugThrow /\ 3 <= lenN arr /\
  di_walk DebugThrow arr 3 (di_begin_of 7 3) (di_end_of 7 3) = Ok [4; 5; 6] /\
  di_add DebugThrow arr (at_pos 7 3 2) (-1) = Ok (at_pos 7 3 1) /\ di_index DebugThrow arr (at_pos 7 3 1) 1 = Ok 6.
Proof. repeat split; discriminate. Qed.

(** C62.  The arguments are applied from left to right: the contents are those of the size
    arguments, the capacity covers every reserve ... *)
Theorem C62_contents_partial : forall (T : Type) max_size avail grow, (forall c n, n <= grow c n) ->
  forall args v, make_vector max_size avail grow args = Ok v ->
  fst v = @contents T [] args /\ lenN (fst v) <= snd v /\ forall n, In (Reserve n) args -> n <= snd v.
Proof. exact @make_ok. Qed.
Print Assumptions C62_contents_partial.
(** ... with one size argument the order does not matter ... *)
Theorem C62_one_size : forall (T : Type) max_size avail grow, (forall c n, n <= grow c n) ->
  forall args n (x : T) v, filter (fun a => negb (is_reserve a)) args = [Size n x] ->
  make_vector max_size avail grow args = Ok v ->
  fst v = repeat x (N.to_nat n) /\ n <= snd v /\ forall m, In (Reserve m) args -> m <= snd v.
Proof. exact @make_one. Qed.
Print Assumptions C62_one_size.
(** ... with two it does ... *)
Theorem C62_order_refuted :
  make_vector (2 ^ 60) (fun _ => true) (fun _ n => n) [Size 3 7; Size 5 8] = Ok ([7; 7; 7; 8; 8], 5) /\
  make_vector (2 ^ 60) (fun _ => true) (fun _ n => n) [Size 5 8; Size 3 7] = Ok ([8; 8; 8], 5).
Proof. exact mv_order_matters. Qed.
Print Assumptions C62_order_refuted.
(** ... it returns if no argument is above max_size() and memory does not run out ... *)
Theorem C62_succeeds : forall (T : Type) max_size avail grow, (forall n, avail n = true) ->
  forall args, (forall a, In a args -> match a with Reserve n => n | Size n _ => n end <= max_size) ->
  exists v, @make_vector T max_size avail grow args = Ok v.
Proof. exact @make_succeeds. Qed.
Print Assumptions C62_succeeds.
(** ... and it fails only as std::vector does. *)
Theorem C62_failures : forall (T : Type) max_size avail grow, (forall c n, n <= grow c n) ->
  forall args, match @make_vector T max_size avail grow args with
  | Ok _ => True
  | Throw length_error => exists a, In a args /\ max_size < match a with Reserve n => n | Size n _ => n end
  | Throw bad_alloc => exists n, avail n = false
  | _ => False end.
Proof. exact @make_fails. Qed.
Print Assumptions C62_failures.
Example C62_nonvacuous : make_vector 1000 (fun n => n <? 100) (fun _ n => n) [Reserve 10; Size 3 7; Reserve 5] = Ok ([7; 7; 7], 10) /\
  make_vector 1000 (fun n => n <? 100) (fun _ n => n) [Reserve 100; Size 3 7] = Throw bad_alloc.
Proof. split; reflexivity. Qed.
