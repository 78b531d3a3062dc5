(** C138: sequences of steps of an index. *)
From Coq Require Import List ZArith. Import ListNotations.
From Verif Require Import Base Index_Model Core_Spec IndexHist_Spec IndexHist_Proofs.

(** In a debug build: the exact value if no step leaves the range, otherwise an assertion fails; nothing is lost on the way.  (For
    the most negative offset see C67.) *)
Theorem C138_debug_partial : forall b ss, b <> Release -> forall i, i < 2 ^ 64 -> Forall step_ok ss ->
  (stays_inside i ss -> do_steps b i ss = Ok (Z.to_N (exact i (moves ss)))) /\ (~ stays_inside i ss -> failed b (do_steps b i ss)).
Proof. exact debug_steps_exact. Qed.
Print Assumptions C138_debug_partial.
(** In a release build only the sum matters, not what happens on the way. *)
Theorem C138_release : forall ss i, i < 2 ^ 64 -> do_steps Release i ss = Ok (Z.to_N (exact i (moves ss) mod 2 ^ 64)).
Proof. exact release_steps. Qed.
Print Assumptions C138_release.
(** What a debug build computes a release build computes too. *)
Theorem C138_debug_agrees : forall b ss i j, i < 2 ^ 64 -> Forall step_ok ss -> do_steps b i ss = Ok j -> do_steps Release i ss = Ok j.
Proof. exact debug_agrees. Qed.
Print Assumptions C138_debug_agrees.
(** The ascending loop visits each index from the first up to but not including the last. *)
Theorem C138_ascending : forall b fuel i last, last < 2 ^ 64 -> (N.to_nat (last - i) <= fuel)%nat ->
  up_loop fuel b i last = Ok (map (fun k => i + N.of_nat k) (seq 0 (N.to_nat (last - i)))).
Proof. exact up_ok. Qed.
Print Assumptions C138_ascending.
(** The descending loop with i >= 0 never ends in a release build; in a debug build its assertion fails. *)
Theorem C138_descending_release : forall fuel i, i < 2 ^ 64 -> down_loop fuel Release i = Diverge.
Proof. exact down_release. Qed.
Print Assumptions C138_descending_release.
Theorem C138_descending_debug : forall b fuel, b <> Release -> forall i, i < 2 ^ 64 -> (N.to_nat i < fuel)%nat -> failed b (down_loop fuel b i).
Proof. exact down_debug. Qed.
Print Assumptions C138_descending_debug.
(** The most negative offset: the exact value fits, but a debug build is undefined. *)
Theorem C138_most_negative_refuted : exists i ss, i < 2 ^ 64 /\ stays_inside i ss /\ do_steps DebugThrow i ss = UB.
Proof.
  exists (2 ^ 63), [Add (- 2 ^ 63)]. split; [reflexivity|]. split; [|reflexivity]. intros [|[|n]]; reflexivity.
Qed.
Print Assumptions C138_most_negative_refuted.

Example C138_nonvacuous :
  Forall step_ok [Inc; Sub 3; Add 10; Dec] /\
  do_steps DebugThrow 2 [Inc; Sub 3; Add 10; Dec] = Ok 9 /\ do_steps DebugThrow 1 [Inc; Sub 3; Add 10; Dec] = Throw logic_error /\
  do_steps Release 1 [Inc; Sub 3; Add 10; Dec] = Ok 8 /\ up_loop 5 DebugAbort 3 6 = Ok [3; 4; 5].
Proof. split; [repeat constructor; discriminate|]. repeat split; vm_compute; reflexivity. Qed.
