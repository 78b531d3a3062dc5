(** C142: sorting a static_vector through its iterators. *)
From Coq Require Import List ZArith Permutation Lia. Import ListNotations.
From Verif Require Import Base Sv_Model SvIter_Model Coll_Spec Algo_Spec Sort_Spec Sort_Proofs.

(** The vector holds the same values afterwards, in order, equivalent ones in the order they had; other vectors are as they were. *)
Theorem C142_sorts : forall {V} (less : V -> V -> bool) (b : build) (i : N) (p : N -> svec V) l, strict_weak less -> holds (p i) l ->
  exists p' l', on_vector b (insertion_sort less (length l)) i p = Ok p' /\ holds (p' i) l' /\ Permutation l l' /\ in_order less l' /\ same_order less l l' /\
    forall j, j <> i -> p' j = p j.
Proof. exact @sort_ok. Qed.
Print Assumptions C142_sorts.

Example C142_nonvacuous : strict_weak N.ltb /\
  let p := fun i : N => match sv_of_list 5 [8; 3; 9; 3; 1] None with Ok v => v | _ => sv_default 5 end in
  holds (p 2) [8; 3; 9; 3; 1] /\
  match on_vector DebugThrow (insertion_sort N.ltb 5) 2 p with Ok p' => sv_iterate DebugThrow (p' 2) = Ok [1; 3; 3; 8; 9] | _ => False end.
Proof.
  split; [split; intros; rewrite ?N.ltb_lt, ?N.ltb_ge in *; Lia.lia|]. split; [|vm_compute; reflexivity].
  split; [reflexivity|]. intros [|[|[|[|[|[|k]]]]]] x E; cbn in E; try discriminate; injection E as <-; reflexivity.
Qed.
