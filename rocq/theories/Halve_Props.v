(** C141: halving a range of integers with mid(). *)
From Coq Require Import List ZArith. Import ListNotations.
From Verif Require Import Base Range_Model Range_Spec Halve_Spec Halve_Proofs.

(** Whatever the predicate, halving ends after at most log2(size) halvings at two neighbours between which it changes (or at an end).
    The range must not be wider than its type (see C71), and in a debug build not open at both ends. *)
Theorem C141_halving_partial : forall b t lk hk yes, usual t -> b = Release \/ lk = closed \/ hk = closed -> forall k lo hi, z_ok t lo -> z_ok t hi ->
  (lo < hi -> hi - lo <= it_hi t -> hi - lo <= 2 ^ Z.of_nat k ->
  exists x, halve (S k) b t lk hk yes (VR lo hi) = Ok (VR x (x + 1)) /\ lo <= x < hi /\ (x = lo \/ yes x = false) /\ (x + 1 = hi \/ yes (x + 1) = true))%Z.
Proof. exact halve_ok. Qed.
Print Assumptions C141_halving_partial.
(** A monotone predicate: the first value for which it holds is found. *)
Theorem C141_first_partial : forall b t lk hk yes, usual t -> b = Release \/ lk = closed \/ hk = closed -> forall k lo hi, z_ok t lo -> z_ok t hi ->
  (lo < hi -> hi - lo <= it_hi t -> hi - lo <= 2 ^ Z.of_nat k -> (forall x y, x <= y -> yes x = true -> yes y = true) -> yes lo = false -> yes hi = true ->
  exists x, halve (S k) b t lk hk yes (VR lo hi) = Ok (VR x (x + 1)) /\ forall y, yes y = true <-> x + 1 <= y)%Z.
Proof. exact halve_first. Qed.
Print Assumptions C141_first_partial.
(** mid() rounds up: it is a member of [min, max) exactly if the range has two members, and otherwise its end... *)
Theorem C141_mid_inside : forall b t lo hi, usual t -> z_ok t lo -> z_ok t hi -> (lo < hi -> hi - lo <= it_hi t ->
  exists m, vr_mid b t (VR lo hi) = Ok m /\ (contains zcmp closed opened (VR lo hi) m = true <-> 2 <= hi - lo) /\ (hi - lo = 1 -> m = hi))%Z.
Proof. exact mid_in. Qed.
Print Assumptions C141_mid_inside.
(** ... so that the usual search in [min, max) need not end. *)
Theorem C141_usual_search_refuted : forall b t lo, usual t -> z_ok t lo -> z_ok t (lo + 1)%Z -> forall yes rounds, yes (lo + 1)%Z = true ->
  first_yes rounds b t yes (VR lo (lo + 1)%Z) = Diverge.
Proof. exact first_stuck. Qed.
Print Assumptions C141_usual_search_refuted.
(** A range that is open at both ends, in a debug build: the assertion fails at the last step. *)
Theorem C141_open_refuted : exists yes r, halve 9 DebugThrow (ITy true 32) opened opened yes r = Throw logic_error /\
  halve 9 Release (ITy true 32) opened opened yes r = Ok (VR 6 7)%Z.
Proof. exists (fun x => 7 <=? x)%Z, (VR 0 10)%Z. split; reflexivity. Qed.
Print Assumptions C141_open_refuted.

Example C141_nonvacuous : usual (ITy true 8) /\ z_ok (ITy true 8) (-20)%Z /\ z_ok (ITy true 8) 100%Z /\
  halve 8 DebugThrow (ITy true 8) closed opened (fun x => 33 <=? x)%Z (VR (-20) 100)%Z = Ok (VR 32 33)%Z /\
  first_yes 9 DebugThrow (ITy true 8) (fun x => 33 <=? x)%Z (VR (-20) 100)%Z = Diverge.
Proof. split; [now left|]. repeat split; vm_compute; try discriminate; reflexivity. Qed.
