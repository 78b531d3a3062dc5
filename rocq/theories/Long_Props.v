(** C102: interpolate, fraction and mid() of long double, in every format at least as wide as
    double. *)
From Coq Require Import Reals.
From Flocq Require Import Core IEEE754.BinarySingleNaN.
From Verif Require Import Base Range_Model Float_Model Float_Spec Long_Model Long_Spec Long_Proofs.
Local Open Scope R_scope.

(** interpolate with a fraction in [0, 1] does the exact computation rounded to long double
    after each step, is never below min, is min at 0, and is inside the range and max at 1
    if the width is a long double ... *)
Theorem C102_interpolate_partial : forall prec emax Hp He, long_format prec emax ->
  forall mn mx : binary_float prec emax, fin mn -> fin (wsub (Hp:=Hp) (He:=He) mx mn) -> B2R mn <= B2R mx ->
  forall f : double, fin f -> 0 <= B2R f <= 1 -> let r := l_interpolate (Hp:=Hp) (He:=He) f mn mx in
    (fin r -> B2R r = to_long prec emax (B2R mn + to_long prec emax (B2R f * to_long prec emax (B2R mx - B2R mn))) /\ B2R mn <= B2R r) /\
    (B2R f = 0 -> fin r /\ B2R r = B2R mn) /\
    (exact_width_of mn mx -> fin r /\ B2R mn <= B2R r <= B2R mx /\ (B2R f = 1 -> B2R r = B2R mx)).
Proof. exact (fun p e Hp He HF mn mx A B C => proj1 (interpolate_long p e Hp He HF mn mx A B C)). Qed.
Print Assumptions C102_interpolate_partial.
(** ... a larger fraction never gives a smaller result ... *)
Theorem C102_monotone_partial : forall prec emax Hp He, long_format prec emax ->
  forall mn mx : binary_float prec emax, fin mn -> fin (wsub (Hp:=Hp) (He:=He) mx mn) -> B2R mn <= B2R mx ->
  forall f g : double, fin f -> fin g -> 0 <= B2R f -> B2R f <= B2R g -> B2R g <= 1 ->
    fin (l_interpolate (Hp:=Hp) (He:=He) f mn mx) -> fin (l_interpolate (Hp:=Hp) (He:=He) g mn mx) ->
    B2R (l_interpolate (Hp:=Hp) (He:=He) f mn mx) <= B2R (l_interpolate (Hp:=Hp) (He:=He) g mn mx).
Proof. exact (fun p e Hp He HF mn mx A B C => proj2 (interpolate_long p e Hp He HF mn mx A B C)). Qed.
Print Assumptions C102_monotone_partial.
(** ... and the members of value_range do the same, with the fraction rounded to double. *)
Theorem C102_range : forall prec emax Hp He, long_format prec emax ->
  forall (r : vrange (binary_float prec emax)) (f v : binary_float prec emax), fin f -> 0 <= B2R f <= 1 ->
  (exists g : double, fin g /\ B2R g = rnd (B2R f) /\ 0 <= B2R g <= 1 /\
     vr_interpolate_long (Hp:=Hp) (He:=He) r f = Ok (l_interpolate g (vmin r) (vmax r))) /\
  vr_fraction_long (Hp:=Hp) (He:=He) r v = l_fraction v (vmin r) (vmax r).
Proof. exact range_members_long. Qed.
Print Assumptions C102_range.
(** fraction(v) of a value inside, if the distance from min is at most the largest double, is
    the distance, rounded to double, over the width; it is at least 0 and at most 2 ... *)
Theorem C102_fraction_partial : forall prec emax Hp He, long_format prec emax ->
  forall v mn mx : binary_float prec emax, fin v -> fin mn -> fin (wsub (Hp:=Hp) (He:=He) mx mn) -> B2R mn < B2R mx -> B2R mn <= B2R v <= B2R mx ->
  to_long prec emax (B2R v - B2R mn) <= dbl_max ->
  exists r, l_fraction (Hp:=Hp) (He:=He) v mn mx = Ok r /\ fin r /\
    B2R r = rnd (to_long prec emax (rnd (to_long prec emax (B2R v - B2R mn)) / to_long prec emax (B2R mx - B2R mn))) /\ 0 <= B2R r <= 2.
Proof. exact l_fraction_value. Qed.
Print Assumptions C102_fraction_partial.
(** ... it is 0 at min and monotone ... *)
Theorem C102_fraction_monotone_partial : forall prec emax Hp He, long_format prec emax ->
  forall mn mx : binary_float prec emax, fin mn -> fin (wsub (Hp:=Hp) (He:=He) mx mn) -> B2R mn < B2R mx ->
  (exists r, l_fraction (Hp:=Hp) (He:=He) mn mn mx = Ok r /\ fin r /\ B2R r = 0) /\
  (forall u v : binary_float prec emax, fin u -> fin v -> B2R mn <= B2R u -> B2R u <= B2R v -> B2R v <= B2R mx ->
     to_long prec emax (B2R v - B2R mn) <= dbl_max ->
     exists r s, l_fraction (Hp:=Hp) (He:=He) u mn mx = Ok r /\ l_fraction (Hp:=Hp) (He:=He) v mn mx = Ok s /\ fin r /\ fin s /\ 0 <= B2R r <= B2R s).
Proof. exact fraction_long. Qed.
Print Assumptions C102_fraction_monotone_partial.
(** ... it is at most 1 if the width is neither below the smallest normal double nor above the
    largest ... *)
Theorem C102_fraction_unit_partial : forall prec emax Hp He, long_format prec emax ->
  forall (v mn mx : binary_float prec emax) (r : double), (53 < prec)%Z ->
  fin v -> fin mn -> fin (wsub (Hp:=Hp) (He:=He) mx mn) -> B2R mn < B2R mx -> B2R mn <= B2R v <= B2R mx ->
  bpow radix2 (-1022) <= to_long prec emax (B2R mx - B2R mn) <= dbl_max ->
  l_fraction (Hp:=Hp) (He:=He) v mn mx = Ok r -> B2R r <= 1.
Proof. exact l_fraction_unit. Qed.
Print Assumptions C102_fraction_unit_partial.
(** ... undefined if the distance is larger ... *)
Theorem C102_fraction_undefined : forall prec emax Hp He, long_format prec emax ->
  forall v mn mx : binary_float prec emax, fin v -> fin mn -> fin (wsub (Hp:=Hp) (He:=He) mx mn) -> B2R mn < B2R mx -> B2R mn <= B2R v <= B2R mx ->
  dbl_max < to_long prec emax (B2R v - B2R mn) -> l_fraction (Hp:=Hp) (He:=He) v mn mx = UB.
Proof. exact l_fraction_ub. Qed.
Print Assumptions C102_fraction_undefined.
(** ... and a NaN for an empty range. *)
Theorem C102_fraction_empty : forall prec emax Hp He (v mn mx : binary_float prec emax), fin mn -> fin mx -> B2R mn = B2R mx ->
  l_fraction (Hp:=Hp) (He:=He) v mn mx = Ok B754_nan.
Proof. exact fraction_empty_long. Qed.
Print Assumptions C102_fraction_empty.
(** With x87's long double, fraction(max) is 1 - 2^-53 for [0, 1 + 2^-53], 4/3 (rounded) for
    [0, 3 * 2^-1076] and undefined for [0, 2^1025] ... *)
Theorem C102_fraction_refuted : exists mx tiny huge : x87, mx = x87_of (2 ^ 53 + 1) (-53) /\ tiny = x87_of 3 (-1076) /\ huge = x87_of 1 1025 /\
  omap B2SF (l_fraction mx (x87_of 0 0) mx) = Ok (SpecFloat.S754_finite false (2 ^ 53 - 1) (-53)) /\
  omap B2SF (l_fraction tiny (x87_of 0 0) tiny) = Ok (SpecFloat.S754_finite false 6004799503160661 (-52)) /\
  l_fraction huge (x87_of 0 0) huge = UB.
Proof. exact fraction_long_refuted. Qed.
Print Assumptions C102_fraction_refuted.
(** ... interpolate(1, -1, 3 * 2^-65) is 2^-63, more than max, and the member interpolate of
    [0, 1] maps 1/2 + 2^-61 to 1/2. *)
Theorem C102_interpolate_refuted : exists one : double, one = of_int 1 /\
  B2SF (l_interpolate one (x87_of (-1) 0) (x87_of 3 (-65))) = B2SF (x87_of 1 (-63)) /\
  Bcompare (x87_of 1 (-63)) (x87_of 3 (-65)) = Some Gt /\
  omap B2SF (vr_interpolate_long (VR (x87_of 0 0) (x87_of 1 0)) (x87_of (2 ^ 60 + 1) (-61))) = Ok (B2SF (x87_of 1 (-1))).
Proof. exact interpolate_long_refuted. Qed.
Print Assumptions C102_interpolate_refuted.
(** mid() is inside if max - min is finite ... *)
Theorem C102_mid_partial : forall prec emax Hp He, long_format prec emax -> forall b (r : vrange (binary_float prec emax)),
  fin (vmin r) -> fin (vmax r) -> B2R (vmin r) <= B2R (vmax r) -> fin (wsub (Hp:=Hp) (He:=He) (vmax r) (vmin r)) ->
  exists m, vr_mid_long (Hp:=Hp) (He:=He) b r = Ok m /\ fin m /\ B2R (vmin r) <= B2R m <= B2R (vmax r).
Proof. exact mid_long. Qed.
Print Assumptions C102_mid_partial.
(** ... and minus infinity if it is not. *)
Theorem C102_mid_overflow_partial : forall prec emax Hp He, long_format prec emax -> forall b (r : vrange (binary_float prec emax)),
  fin (vmin r) -> fin (vmax r) -> B2R (vmin r) <= B2R (vmax r) -> is_finite (wsub (Hp:=Hp) (He:=He) (vmax r) (vmin r)) = false ->
  vr_mid_long (Hp:=Hp) (He:=He) b r = Ok (B754_infinity true).
Proof. exact mid_overflow_long. Qed.
Print Assumptions C102_mid_overflow_partial.
Theorem C102_mid_refuted : exists r : vrange x87, r = VR (Bopp flt_max) flt_max /\ omap B2SF (vr_mid_long Release r) = Ok (SpecFloat.S754_infinity true).
Proof. exact (ex_intro _ _ (conj eq_refl eq_refl)). Qed.
Print Assumptions C102_mid_refuted.
Example C102_nonvacuous : exists mn mx v : x87, mn = x87_of 1 0 /\ mx = x87_of 3 0 /\ v = x87_of 3 (-1) /\
  long_format 64 16384 /\ fin mn /\ fin v /\ fin (wsub mx mn) /\ B2R mn < B2R v < B2R mx /\ exact_width_of mn mx /\
  to_long 64 16384 (B2R mx - B2R mn) = 2 /\
  B2SF (l_interpolate (ddiv (of_int 1) (of_int 4)) mn mx) = B2SF v /\
  omap B2SF (l_fraction v mn mx) = Ok (B2SF (ddiv (of_int 1) (of_int 4))).
Proof. exact long_example. Qed.
