(** C140: algorithms over the iterators of a static_vector. *)
From Coq Require Import List ZArith. Import ListNotations.
From Verif Require Import Base Iter_Model Sv_Model SvIter_Model Coll_Spec Algo_Spec Algo_Proofs.

(** Every algorithm that stays inside a sequence does to the vector what it does to the list of its values, and nothing to other
    vectors.  Not in debug builds: moving to the end with += (see C61). *)
Theorem C140_algorithms_partial : forall {V} (b : build) (to_end : bool) (a : algo V) (i : N) (p : N -> svec V) l l',
  (to_end = true -> b = Release) -> holds (p i) l -> on_values to_end a l = Some l' ->
  exists p', on_vector b a i p = Ok p' /\ holds (p' i) l' /\ forall j, j <> i -> p' j = p j.
Proof. exact @algo_ok. Qed.
Print Assumptions C140_algorithms_partial.
(** The vectors can have any history (as in C54). *)
Theorem C140_after_history_partial : forall {V} b cap (moved : V -> V) veq ops xs q to_end (a : algo V) i l', cap < 2 ^ 63 ->
  vec_run cap moved veq ops (fun _ => []) = Some (xs, q) -> (to_end = true -> b = Release) -> on_values to_end a (q i) = Some l' ->
  exists p p', sv_run b cap moved veq ops (sv_start cap) = (xs, p) /\ on_vector b a i p = Ok p' /\ holds (p' i) l' /\ forall j, j <> i -> p' j = p j.
Proof. exact @history_ok. Qed.
Print Assumptions C140_after_history_partial.
(** In a debug build an assertion fails if the first thing the algorithm does wrong is to move out of the range, or to its end with +=. *)
Theorem C140_leaving_is_reported : forall {V} (b : build) (a : algo V) (i : N) (p : N -> svec V) l, debug b -> holds (p i) l -> leaves a l = true ->
  assertion_fails b (on_vector b a i p).
Proof. exact @leaves_fails. Qed.
Print Assumptions C140_leaving_is_reported.
(** std::reverse reverses the vector. *)
Theorem C140_reverse : forall {V} (b : build) (i : N) (p : N -> svec V) l, holds (p i) l ->
  exists p', on_vector b (reverse (length l)) i p = Ok p' /\ holds (p' i) (rev l) /\ forall j, j <> i -> p' j = p j.
Proof. exact @reverse_ok. Qed.
Print Assumptions C140_reverse.
(** Moving the first element to the end by exchanging neighbours. *)
Theorem C140_rotate : forall {V} (b : build) (i : N) (p : N -> svec V) x l, holds (p i) (x :: l) ->
  exists p', on_vector b (rotate_one (S (length l))) i p = Ok p' /\ holds (p' i) (l ++ [x]) /\ forall j, j <> i -> p' j = p j.
Proof. exact @rotate_ok. Qed.
Print Assumptions C140_rotate.
(** An algorithm that moves to the end with += is correct, but its assertion fails in a debug build. *)
Theorem C140_to_end_refuted : exists (a : algo N) (p : N -> svec N) l, holds (p 0) l /\ on_values true a l = Some l /\
  on_vector Release a 0 p = Ok p /\ on_vector DebugThrow a 0 p = Throw logic_error.
Proof.
  exists (Jump 0 2%Z Done), (fun _ => match sv_of_list 4 [5; 6] None with Ok v => v | _ => sv_default 4 end), [5; 6].
  split; [split; [reflexivity|]; intros [|[|[|k]]] x E; cbn in E; try discriminate; injection E as <-; reflexivity|]. repeat split.
Qed.
Print Assumptions C140_to_end_refuted.

Example C140_nonvacuous :
  let p := fun i : N => match sv_of_list 4 [5; 6; 7 + i] None with Ok v => v | _ => sv_default 4 end in
  holds (p 1) [5; 6; 8] /\
  match on_vector DebugThrow (reverse 3) 1 p with Ok p' => sv_iterate DebugThrow (p' 1) = Ok [8; 6; 5] /\ sv_iterate DebugThrow (p' 0) = Ok [5; 6; 7] | _ => False end /\
  on_values false (Step 1 Done) [5; 6; 8] = None /\ leaves (Step 1 Done) [5; 6; 8] = true /\ on_vector DebugAbort (Step 1 Done) 1 p = Terminate.
Proof. split; [split; [reflexivity|]; intros [|[|[|[|k]]]] x E; cbn in E; try discriminate; injection E as <-; reflexivity|]. vm_compute. auto. Qed.
