(** C94: interpolate and fraction of floats. *)
From Coq Require Import Reals.
From Flocq Require Import Core IEEE754.BinarySingleNaN.
From Verif Require Import Base Range_Model Float_Model Float_Spec Single_Model Single_Spec Single_Proofs RangeEdge_Proofs.
Local Open Scope R_scope.

(** C94.  If max - min is a finite float, interpolate is defined for fractions in [0, 1],
    gives min at 0 and nothing below min; if max - min is exact it stays inside and gives max at 1 ... *)
Theorem C94_interpolate_partial : forall (mn mx : single) (f : double), fin mn -> fin (ssub mx mn) -> B2R mn <= B2R mx -> fin f -> 0 <= B2R f <= 1 ->
  exists r, s_interpolate f mn mx = Ok r /\
    (fin r -> B2R r = to_float (B2R mn + to_float (rnd (B2R f * to_float (B2R mx - B2R mn)))) /\ B2R mn <= B2R r) /\
    (B2R f = 0 -> fin r /\ B2R r = B2R mn) /\
    (exact_width mn mx -> fin r /\ B2R mn <= B2R r <= B2R mx /\ (B2R f = 1 -> B2R r = B2R mx)).
Proof. exact (fun mn mx f A B C => proj1 (interpolate_single mn mx A B C) f). Qed.
Print Assumptions C94_interpolate_partial.
(** ... a larger fraction never gives a smaller result ... *)
Theorem C94_monotone_partial : forall (mn mx : single), fin mn -> fin (ssub mx mn) -> B2R mn <= B2R mx ->
  forall f g r s, fin f -> fin g -> 0 <= B2R f -> B2R f <= B2R g -> B2R g <= 1 ->
    s_interpolate f mn mx = Ok r -> s_interpolate g mn mx = Ok s -> fin r -> fin s -> B2R r <= B2R s.
Proof. exact (fun mn mx A B C => proj2 (interpolate_single mn mx A B C)). Qed.
Print Assumptions C94_monotone_partial.
(** ... and the members of value_range do the same with a float as fraction ... *)
Theorem C94_range_partial : forall (r : vrange single) (f v : single), fin f ->
  (exists g : double, fin g /\ B2R g = B2R f /\ vr_interpolate_float r f = s_interpolate g (vmin r) (vmax r)) /\
  vr_fraction_float r v = s_fraction v (vmin r) (vmax r).
Proof. exact range_members. Qed.
Print Assumptions C94_range_partial.
(** ... fraction is 0 at min, 1 at max, in [0, 1] between and monotone ... *)
Theorem C94_fraction_partial : forall (mn mx : single), fin mn -> fin (ssub mx mn) -> B2R mn < B2R mx ->
  (fin (s_fraction mn mn mx) /\ B2R (s_fraction mn mn mx) = 0) /\
  (fin (s_fraction mx mn mx) /\ B2R (s_fraction mx mn mx) = 1) /\
  (forall u v : single, fin u -> fin v -> B2R mn <= B2R u -> B2R u <= B2R v -> B2R v <= B2R mx ->
     fin (s_fraction u mn mx) /\ fin (s_fraction v mn mx) /\
     0 <= B2R (s_fraction u mn mx) <= B2R (s_fraction v mn mx) /\ B2R (s_fraction v mn mx) <= 1).
Proof. exact fraction_single. Qed.
Print Assumptions C94_fraction_partial.
(** ... and a NaN for an empty range. *)
Theorem C94_fraction_empty : forall v mn mx : single, fin mn -> fin mx -> B2R mn = B2R mx -> is_nan (s_fraction v mn mx) = true.
Proof. exact fraction_empty. Qed.
Print Assumptions C94_fraction_empty.
(** Otherwise interpolate(1, a, b) need not be b, nor stay in [a, b], nor be finite, and
    beyond 1 it can be undefined. *)
Theorem C94_endpoint_refuted : exists one : double, one = of_int 1 /\
  omap B2SF (s_interpolate one (float_of (-1) 0) (float_of 3 (-25))) = Ok (B2SF (float_of 1 (-23))) /\
  Bcompare (float_of 1 (-23)) (float_of 3 (-25)) = Some Gt /\
  omap B2SF (s_interpolate one (float_of 3 103) flt_max) = Ok (SpecFloat.S754_infinity false) /\
  s_interpolate (of_int 3) (float_of 0 0) flt_max = UB.
Proof. exact endpoint_refuted. Qed.
Print Assumptions C94_endpoint_refuted.
(** mid() is inside if max - min is finite ... *)
Theorem C94_mid_partial : forall b (r : vrange single), fin (vmin r) -> fin (vmax r) -> B2R (vmin r) <= B2R (vmax r) ->
  fin (ssub (vmax r) (vmin r)) ->
  exists m, vr_mid_float b r = Ok m /\ fin m /\ B2R (vmin r) <= B2R m <= B2R (vmax r).
Proof. exact mid_single. Qed.
Print Assumptions C94_mid_partial.
(** ... and minus infinity if it is not ... *)
Theorem C94_mid_overflow_partial : forall b (r : vrange single), fin (vmin r) -> fin (vmax r) -> B2R (vmin r) <= B2R (vmax r) ->
  is_finite (ssub (vmax r) (vmin r)) = false -> vr_mid_float b r = Ok (B754_infinity true).
Proof. exact mid_overflow_single. Qed.
Print Assumptions C94_mid_overflow_partial.
(** ... as for [-max, max]. *)
Theorem C94_mid_refuted : exists r : vrange single, r = VR (Bopp flt_max) flt_max /\ omap B2SF (vr_mid_float Release r) = Ok (SpecFloat.S754_infinity true).
Proof. exact (ex_intro _ _ (conj eq_refl eq_refl)). Qed.
Print Assumptions C94_mid_refuted.
Example C94_nonvacuous : fin (float_of 1 0) /\ fin (ssub (float_of 3 0) (float_of 1 0)) /\ B2R (float_of 1 0) < B2R (float_of 3 0) /\
  exact_width (float_of 1 0) (float_of 3 0) /\
  omap B2SF (s_interpolate (ddiv (of_int 1) (of_int 4)) (float_of 1 0) (float_of 3 0)) = Ok (B2SF (float_of 3 (-1))) /\
  B2SF (s_fraction (float_of 3 (-1)) (float_of 1 0) (float_of 3 0)) = B2SF (ddiv (of_int 1) (of_int 4)).
Proof. exact float_example. Qed.
