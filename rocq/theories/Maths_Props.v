(** C68-C74 and C79-C82: value ranges, bounded values and numeric helpers. *)
From Coq Require Import Permutation Reals.
From Flocq Require Import Core IEEE754.BinarySingleNaN.
From Verif Require Import Base Range_Model Range_Spec MinMax_Proofs IntRange_Proofs Float_Model Float_Spec Float_Proofs Interp_Proofs FloatMid_Proofs Frac_Proofs InterpWide_Proofs Single_Model RangeEdge_Proofs Maths_PropLemmas.

Local Open Scope Z_scope.

(** The hypothesis [ordered] of the theorems below, for the built-in types. *)
Theorem C68_integers_ordered : forall t, ordered (z_ok t) zcmp Z.le /\ antisym (z_ok t) Z.le.
Proof. exact (fun t => conj (z_ordered (z_ok t)) (z_antisym (z_ok t))). Qed.
Print Assumptions C68_integers_ordered.
Theorem C68_floats_ordered : forall prec emax, ordered (not_nan prec emax) Bcompare (ext_le prec emax).
Proof. exact float_ordered. Qed.
Print Assumptions C68_floats_ordered.

(** C68.  Membership is membership of the mathematical interval ... *)
Theorem C68_membership : forall T (ok : T -> Prop) cmp le, ordered ok cmp le -> forall lk hk r x, valid ok le r -> ok x ->
  (contains cmp lk hk r x = true <-> in_interval le lk hk r x) /\
  (below_min cmp lk r x = true <-> ~ after_start le lk (vmin r) x) /\
  (above_max cmp hk r x = true <-> ~ before_end le hk (vmax r) x).
Proof. exact @membership. Qed.
Print Assumptions C68_membership.
(** ... and exactly one of the three tests holds. *)
Theorem C68_exactly_one : forall T (ok : T -> Prop) cmp le, ordered ok cmp le -> forall lk hk r x, valid ok le r -> ok x ->
  (lk = closed /\ hk = closed \/ ~ le (vmax r) (vmin r)) ->
  one_of3 (below_min cmp lk r x = true) (contains cmp lk hk r x = true) (above_max cmp hk r x = true).
Proof. exact @Range_Proofs.one_of. Qed.
Print Assumptions C68_exactly_one.
Example C68_nonvacuous : valid (z_ok (ITy true 32)) Z.le (VR (-10) 10)%Z /\ contains zcmp closed opened (VR (-10) 10)%Z (-10)%Z = true /\
  contains zcmp closed opened (VR (-10) 10)%Z 10%Z = false /\ above_max zcmp opened (VR (-10) 10)%Z 10%Z = true.
Proof. repeat split; vm_compute; congruence. Qed.

(** C69.  An overlap has exactly the common members; without overlap there are none ... *)
Theorem C69_members_partial : forall T (ok : T -> Prop) cmp le, ordered ok cmp le -> forall b lk hk r s, valid ok le r -> valid ok le s ->
  exists o, overlap cmp b r s = Ok o /\
    match o with
    | Some q => valid ok le q /\ forall x, ok x -> in_interval le lk hk q x <-> in_interval le lk hk r x /\ in_interval le lk hk s x
    | None => forall x, ok x -> ~ (in_interval le lk hk r x /\ in_interval le lk hk s x)
    end.
Proof. exact @Range_Proofs.overlap_members. Qed.
Print Assumptions C69_members_partial.
(** ... for closed ranges the converse holds too ... *)
Theorem C69_closed_partial : forall T (ok : T -> Prop) cmp le, ordered ok cmp le -> forall b r s, valid ok le r -> valid ok le s ->
  (overlap cmp b r s = Ok None <-> forall x, ok x -> ~ (in_interval le closed closed r x /\ in_interval le closed closed s x)).
Proof. exact @Range_Proofs.overlap_closed. Qed.
Print Assumptions C69_closed_partial.
(** ... for open ones it does not: (0, 1) and (1, 2) have an overlap, (1, 1). *)
Theorem C69_open_refuted : exists r s : vrange Z, r = VR 0%Z 1%Z /\ s = VR 1%Z 2%Z /\ overlap zcmp Release r s = Ok (Some (VR 1%Z 1%Z)) /\
  forall x, ~ (in_interval Z.le opened opened r x /\ in_interval Z.le opened opened s x).
Proof. exact (ex_intro _ _ (ex_intro _ _ (conj eq_refl (conj eq_refl (conj eq_refl open_disjoint))))). Qed.
Print Assumptions C69_open_refuted.
(** Commutative, associative, idempotent: up to equivalent ends, hence exactly where
    equivalent values are equal. *)
Theorem C69_laws : forall T (ok : T -> Prop) cmp le, ordered ok cmp le -> forall b r s t, valid ok le r -> valid ok le s -> valid ok le t ->
  same_opt le (overlap cmp b r s) (overlap cmp b s r) /\
  same_opt le (overlap_left (overlap cmp b) r s t) (overlap_right (overlap cmp b) r s t) /\
  overlap cmp b r r = Ok (Some r).
Proof. exact @overlap_laws. Qed.
Print Assumptions C69_laws.
Theorem C69_laws_exact : forall T (ok : T -> Prop) cmp le, ordered ok cmp le -> antisym ok le -> forall b r s t, valid ok le r -> valid ok le s -> valid ok le t ->
  overlap cmp b r s = overlap cmp b s r /\
  overlap_left (overlap cmp b) r s t = overlap_right (overlap cmp b) r s t.
Proof. exact @overlap_laws_exact. Qed.
Print Assumptions C69_laws_exact.
Example C69_nonvacuous : overlap zcmp DebugThrow (VR (-10) 10)%Z (VR (-100) (-2))%Z = Ok (Some (VR (-10) (-2))%Z) /\
  overlap zcmp DebugThrow (VR (-10) 10)%Z (VR 20 40)%Z = Ok None /\ valid anything Z.le (VR (-10) 10)%Z.
Proof. repeat split; vm_compute; congruence. Qed.

(** C70.  Clamping into a closed range ... *)
Theorem C70_closed_partial : forall T (ok : T -> Prop) cmp le, ordered ok cmp le -> forall r, valid ok le r ->
  (forall x, ok x -> exists y, clamp cmp r x = Ok y /\ ok y /\ in_interval le closed closed r y /\
    (in_interval le closed closed r x -> y = x) /\
    (forall z, ok z -> in_interval le closed closed r z -> on_the_way le x y z) /\
    clamp cmp r y = Ok y) /\
  (forall x y u v, ok x -> ok y -> le x y -> clamp cmp r x = Ok u -> clamp cmp r y = Ok v -> le u v).
Proof. exact @clamp_laws. Qed.
Print Assumptions C70_closed_partial.
(** ... for integers, by distance ... *)
Theorem C70_integers_partial : forall t r x, valid (z_ok t) Z.le r -> z_ok t x ->
  exists y, clamp zcmp r x = Ok y /\ z_ok t y /\ (vmin r <= y <= vmax r)%Z /\
    forall z, (vmin r <= z <= vmax r)%Z -> (Z.abs (x - y) <= Z.abs (x - z))%Z.
Proof. exact int_clamp_nearest. Qed.
Print Assumptions C70_integers_partial.
(** ... whatever the kinds of the ends the result is between them, is the value itself if it
    was contained, and is contained exactly if the value was or the end it was moved to is
    closed (and does not coincide with an open one) ... *)
Theorem C70_any_ends_partial : forall T (ok : T -> Prop) cmp le, ordered ok cmp le -> forall lk hk r x, valid ok le r -> ok x ->
  exists y, clamp cmp r x = Ok y /\ ok y /\ le (vmin r) y /\ le y (vmax r) /\
    (in_interval le lk hk r x -> y = x) /\
    (in_interval le lk hk r y <->
       in_interval le lk hk r x \/
       (lk = closed /\ lt_of le x (vmin r) /\ (hk = closed \/ lt_of le (vmin r) (vmax r))) \/
       (hk = closed /\ lt_of le (vmax r) x /\ (lk = closed \/ lt_of le (vmin r) (vmax r)))).
Proof. exact @clamp_kinds. Qed.
Print Assumptions C70_any_ends_partial.
(** ... so into an open one it can be outside. *)
Theorem C70_open_refuted : exists r : vrange Z, r = VR 0%Z 10%Z /\ clamp zcmp r (-5)%Z = Ok 0%Z /\ contains zcmp opened opened r 0%Z = false /\
  contains zcmp opened opened r 1%Z = true.
Proof. exact (ex_intro _ _ (conj eq_refl (conj eq_refl (conj eq_refl eq_refl)))). Qed.
Print Assumptions C70_open_refuted.
Example C70_nonvacuous : clamp zcmp (VR (-10) 10)%Z 11%Z = Ok 10%Z /\ clamp zcmp (VR (-10) 10)%Z (-11)%Z = Ok (-10)%Z /\ clamp zcmp (VR (-10) 10)%Z 3%Z = Ok 3%Z /\
  clamp zcmp (VR 10 (-10))%Z 3%Z = UB.
Proof. repeat split. Qed.

(** C71.  Integers: exact if the width is a value of the type ... *)
Theorem C71_fits_partial : forall b t r, usual t -> z_ok t (vmin r) -> z_ok t (vmax r) -> (vmin r <= vmax r)%Z -> (vmax r - vmin r <= it_hi t)%Z ->
  vr_size b t r = Ok (vmax r - vmin r)%Z /\
  exists m, vr_mid b t r = Ok m /\ (vmin r <= m <= vmax r)%Z /\ half_way (vmin r) (vmax r) m.
Proof. exact size_mid. Qed.
Print Assumptions C71_fits_partial.
(** ... hence always for unsigned types ... *)
Theorem C71_unsigned_partial : forall b bits r, usual (ITy false bits) -> z_ok (ITy false bits) (vmin r) -> z_ok (ITy false bits) (vmax r) -> (vmin r <= vmax r)%Z ->
  vr_size b (ITy false bits) r = Ok (vmax r - vmin r)%Z /\
  exists m, vr_mid b (ITy false bits) r = Ok m /\ (vmin r <= m <= vmax r)%Z /\ half_way (vmin r) (vmax r) m.
Proof. exact size_mid_unsigned. Qed.
Print Assumptions C71_unsigned_partial.
(** ... and only then: otherwise undefined, or for types narrower than int negative, and
    mid() is not between the ends ... *)
Theorem C71_too_wide : forall b t r, usual t -> z_ok t (vmin r) -> z_ok t (vmax r) -> (vmin r <= vmax r)%Z -> (it_hi t < vmax r - vmin r)%Z ->
  if (32 <=? it_bits t)%Z then vr_size b t r = UB /\ vr_mid b t r = UB
  else (vr_size b t r = Ok (vmax r - vmin r - 2 ^ it_bits t) /\ vmax r - vmin r < 2 ^ it_bits t)%Z /\
    exists m, vr_mid b t r = Ok m /\ ~ (vmin r < m < vmax r)%Z /\
      (m = vmin r \/ m = vmax r -> vmin r = it_lo t /\ vmax r = it_hi t /\ m = vmax r).
Proof. exact size_mid_over. Qed.
Print Assumptions C71_too_wide.
Theorem C71_overflow_refuted : exists r s : vrange Z, r = VR (- 2 ^ 31)%Z (2 ^ 31 - 1)%Z /\ s = VR (-100)%Z 100%Z /\
  vr_size Release (ITy true 32) r = UB /\ vr_mid Release (ITy true 32) r = UB /\
  vr_size Release (ITy true 8) s = Ok (-56)%Z /\ vr_mid Release (ITy true 8) s = Ok (-128)%Z.
Proof. exact (ex_intro _ _ (ex_intro _ _ (conj eq_refl (conj eq_refl (conj eq_refl (conj eq_refl (conj eq_refl eq_refl))))))). Qed.
Print Assumptions C71_overflow_refuted.
Example C71_nonvacuous : vr_size DebugThrow (ITy true 32) (VR (-10) 11)%Z = Ok 21%Z /\ vr_mid DebugThrow (ITy true 32) (VR (-10) 11)%Z = Ok 1%Z /\
  vr_mid DebugThrow (ITy true 32) (VR 11 (-10))%Z = Terminate /\ usual (ITy true 32).
Proof. vm_compute. repeat split. auto. Qed.

(** C72.  The least and greatest argument, the first among equals ... *)
Theorem C72_min_max : forall T (ok : T -> Prop) cmp le, ordered ok cmp le -> forall x xs, ok x -> Forall ok xs ->
  first_least le (v_min cmp x xs) (x :: xs) /\ first_greatest le (v_max cmp x xs) (x :: xs) /\
  v_minmax cmp x xs = (v_min cmp x xs, v_max cmp x xs) /\
  (forall y, xs = [y] -> least le (fst (minmax2 cmp x y)) (x :: xs) /\ greatest le (snd (minmax2 cmp x y)) (x :: xs)).
Proof. exact @minmax_all. Qed.
Print Assumptions C72_min_max.
(** ... in any order ... *)
Theorem C72_any_order : forall T (ok : T -> Prop) cmp le, ordered ok cmp le -> forall x xs y ys, ok x -> Forall ok xs -> Permutation (x :: xs) (y :: ys) ->
  (le (v_min cmp x xs) (v_min cmp y ys) /\ le (v_min cmp y ys) (v_min cmp x xs)) /\
  (le (v_max cmp x xs) (v_max cmp y ys) /\ le (v_max cmp y ys) (v_max cmp x xs)).
Proof. exact @min_max_perm. Qed.
Print Assumptions C72_any_order.
Theorem C72_any_order_exact : forall T (ok : T -> Prop) cmp le, ordered ok cmp le -> antisym ok le -> forall x xs y ys,
  ok x -> Forall ok xs -> Permutation (x :: xs) (y :: ys) -> v_min cmp x xs = v_min cmp y ys /\ v_max cmp x xs = v_max cmp y ys.
Proof. exact @min_max_exact. Qed.
Print Assumptions C72_any_order_exact.
(** ... and the envelope is the smallest closed range around the values ... *)
Theorem C72_envelope : forall T (ok : T -> Prop) cmp le, ordered ok cmp le -> forall b x xs, ok x -> Forall ok xs -> xs <> [] ->
  exists r, envelope cmp b x xs = Ok r /\ closed_hull ok le r (x :: xs).
Proof. exact @envelope_hull. Qed.
Print Assumptions C72_envelope.
(** ... of a collection (an empty one is undefined) ... *)
Theorem C72_envelope_range : forall T (ok : T -> Prop) cmp le, ordered ok cmp le -> forall b l, Forall ok l ->
  match l with [] => envelope_range cmp b l = UB | _ => exists r, envelope_range cmp b l = Ok r /\ closed_hull ok le r l end.
Proof. exact @envelope_range_hull. Qed.
Print Assumptions C72_envelope_range.
(** ... and of ranges. *)
Theorem C72_envelope_ranges : forall T (ok : T -> Prop) cmp le, ordered ok cmp le -> forall b lk hk r rs, Forall (valid ok le) (r :: rs) ->
  exists e, envelope_ranges cmp b r rs = Ok e /\ valid ok le e /\
    least le (vmin e) (map vmin (r :: rs)) /\ greatest le (vmax e) (map vmax (r :: rs)) /\
    (forall s x, In s (r :: rs) -> ok x -> in_interval le lk hk s x -> in_interval le lk hk e x) /\
    (forall q, valid ok le q -> (forall s x, In s (r :: rs) -> ok x -> in_interval le closed closed s x -> in_interval le closed closed q x) ->
       forall x, ok x -> in_interval le closed closed e x -> in_interval le closed closed q x).
Proof. exact @envelope_ranges_hull. Qed.
Print Assumptions C72_envelope_ranges.
Example C72_nonvacuous : v_max zcmp 21 [32; 1; 0; -10; 45; 19]%Z = 45%Z /\ v_min zcmp 21 [32; 1; 0; -10; 45; 19]%Z = (-10)%Z /\
  envelope zcmp DebugThrow 3 [1; 2]%Z = Ok (VR 1 3)%Z /\ envelope zcmp DebugThrow 3 [1]%Z = Ok (VR 1 3)%Z /\
  envelope_range zcmp DebugThrow [3; 1; 2]%Z = Ok (VR 1 3)%Z /\ envelope_ranges zcmp DebugThrow (VR 0 1)%Z [VR 5 6; VR (-1) 0]%Z = Ok (VR (-1) 6)%Z.
Proof. vm_compute. repeat split. Qed.

(** C73.  Integers away from the ends ... *)
Theorem C73_integers : forall t v, usual t -> z_ok t v ->
  ((v < it_hi t)%Z -> int_next t v = Ok (v + 1)%Z) /\ ((it_lo t < v)%Z -> int_prev t v = Ok (v - 1)%Z).
Proof. exact int_neighbours. Qed.
Print Assumptions C73_integers.
(** ... next_value of every finite float below the largest, in every format ... *)
Theorem C73_next_float : forall prec emax (Hp : Prec_gt_0 prec) (He : Prec_lt_emax prec emax) (x : binary_float prec emax),
  fin x -> (B2R x < B2R (flt_max : binary_float prec emax))%R -> next_up x (flt_next x).
Proof. exact next_least. Qed.
Print Assumptions C73_next_float.
(** ... prev_value of those above the smallest positive normal number ... *)
Theorem C73_prev_float_partial : forall prec emax (Hp : Prec_gt_0 prec) (He : Prec_lt_emax prec emax) (x : binary_float prec emax),
  fin x -> (bpow radix2 (2 - emax) < B2R x)%R -> next_down x (flt_prev x).
Proof. exact prev_greatest. Qed.
Print Assumptions C73_prev_float_partial.
(** ... all others go up instead, to the next value, and the smallest normal number stays. *)
Theorem C73_prev_float_wrong_way : forall prec emax (Hp : Prec_gt_0 prec) (He : Prec_lt_emax prec emax) (x : binary_float prec emax),
  fin x -> (B2R x <= bpow radix2 (2 - emax))%R ->
  (B2R x < bpow radix2 (2 - emax) -> next_up x (flt_prev x))%R /\
  (B2R x = bpow radix2 (2 - emax) -> fin (flt_prev x) /\ B2R (flt_prev x) = B2R x)%R.
Proof. exact prev_wrong_way. Qed.
Print Assumptions C73_prev_float_wrong_way.
(** prev_value(-1.0) is -(2^53 - 1) / 2^53. *)
Theorem C73_prev_float_refuted : exists x : double, x = of_int (-1) /\ B2SF (flt_prev x) = SpecFloat.S754_finite true 9007199254740991 (-53) /\
  Bcompare x (flt_prev x) = Some Lt.
Proof. exact (ex_intro _ _ (conj eq_refl (conj eq_refl eq_refl))). Qed.
Print Assumptions C73_prev_float_refuted.
Example C73_nonvacuous : B2SF (flt_next (of_int 1)) = SpecFloat.S754_finite false 4503599627370497 (-52) /\
  B2SF (flt_prev (of_int 1)) = SpecFloat.S754_finite false 9007199254740991 (-53) /\
  int_next (ITy true 32) (2 ^ 31 - 1)%Z = UB /\ int_next (ITy true 8) 127%Z = Ok (-128)%Z /\ int_prev (ITy false 64) 0%Z = Ok (2 ^ 64 - 1)%Z.
Proof. vm_compute. repeat split. Qed.

(** C74.  In exact arithmetic ... *)
Theorem C74_exact_arithmetic : forall f g a b v : R, (a <> b ->
    r_fraction (r_interpolate f a b) a b = f /\ r_interpolate (r_fraction v a b) a b = v) /\
  r_interpolate 0 a b = a /\ r_interpolate 1 a b = b /\
  (f <= g -> a <= b -> r_interpolate f a b <= r_interpolate g a b)%R /\
  (0 <= f <= 1 -> a <= b -> a <= r_interpolate f a b <= b)%R.
Proof. exact real_laws. Qed.
Print Assumptions C74_exact_arithmetic.
(** ... integers whose width fits the type and 2^53 (so every 32-bit type), with the
    fraction a double and the product rounded as the machine does ... *)
Theorem C74_integers_partial : forall t mn mx, usual t -> z_ok t mn -> z_ok t mx -> (mn <= mx)%Z -> (mx - mn <= it_hi t)%Z -> (mx - mn <= 2 ^ 53)%Z ->
  (forall f : double, fin f -> (0 <= B2R f <= 1)%R ->
     exists r, i_interpolate t f mn mx = Ok r /\ (mn <= r <= mx)%Z /\
       r = (mn + Ztrunc (rnd (B2R f * IZR (mx - mn))))%Z /\
       (Zfloor (B2R f * IZR (mx - mn)) <= r - mn <= Zfloor (B2R f * IZR (mx - mn)) + 1)%Z) /\
  (forall f : double, fin f -> (B2R f = 0 -> i_interpolate t f mn mx = Ok mn)%R /\ (B2R f = 1 -> i_interpolate t f mn mx = Ok mx)%R) /\
  (forall f g : double, fin f -> fin g -> (0 <= B2R f)%R -> (B2R f <= B2R g)%R -> (B2R g <= 1)%R ->
     exists r s, i_interpolate t f mn mx = Ok r /\ i_interpolate t g mn mx = Ok s /\ (r <= s)%Z).
Proof. exact interpolate_int. Qed.
Print Assumptions C74_integers_partial.
(** ... for wider 64-bit ranges the result can lie outside, or be undefined ... *)
Theorem C74_wide_refuted : exists mx, mx = (2 ^ 53 + 3)%Z /\ i_interpolate (ITy true 64) (of_int 1) 0 mx = Ok (mx + 1)%Z /\
  i_interpolate (ITy true 64) (of_int 1) 0 (2 ^ 63 - 1)%Z = UB.
Proof. exact (ex_intro _ _ (conj eq_refl (conj eq_refl eq_refl))). Qed.
Print Assumptions C74_wide_refuted.
(** ... and for ends at any distance this is the exact outcome: at most 1024 beyond the upper end ... *)
Theorem C74_any_width_partial : forall t mn mx (f : double), usual t -> z_ok t mn -> z_ok t mx -> (mn <= mx)%Z ->
  fin f -> (0 <= B2R f <= 1)%R ->
  let w := (mx - mn)%Z in
  let k := Ztrunc (rnd (B2R f * rnd (IZR w))) in
  (0 <= k <= w + 1024)%Z /\ ((w <= 2 ^ 53)%Z -> (k <= w)%Z) /\
  (it_signed t = true -> (32 <= it_bits t)%Z -> (it_hi t < w)%Z -> i_interpolate t f mn mx = UB) /\
  (it_signed t = false \/ (it_bits t < 32)%Z \/ (w <= it_hi t)%Z ->
     ((it_hi t < k)%Z -> i_interpolate t f mn mx = UB) /\
     ((k <= it_hi t)%Z -> (mn + k <= it_hi t)%Z -> i_interpolate t f mn mx = Ok (mn + k)%Z) /\
     ((k <= it_hi t)%Z -> (it_hi t < mn + k)%Z ->
        i_interpolate t f mn mx = if it_signed t then UB else Ok (mn + k - 2 ^ it_bits t)%Z)).
Proof. exact interpolate_any_width. Qed.
Print Assumptions C74_any_width_partial.
(** The end points of int8_t, int64_t and uint64_t ranges; interpolate(1.0, 2^63, 2^64 - 1) is 0. *)
Example C74_any_width_nonvacuous :
  i_interpolate (ITy true 8) (of_int 1) (-100) 100 = UB /\ i_interpolate (ITy true 8) (ddiv (of_int 1) (of_int 2)) (-100) 100 = Ok 0%Z /\
  i_interpolate (ITy true 64) (of_int 1) (2 ^ 61) (2 ^ 63 - 1) = UB /\
  i_interpolate (ITy false 64) (of_int 1) (2 ^ 63) (2 ^ 64 - 1) = Ok 0%Z /\
  i_interpolate (ITy false 64) (of_int 1) 0 (2 ^ 64 - 1) = UB.
Proof. repeat split; vm_compute; reflexivity. Qed.
(** ... fraction of integers, and back with an error of at most one ... *)
Theorem C74_fraction_partial : forall t mn mx, usual t -> z_ok t mn -> z_ok t mx -> (mn < mx)%Z -> (mx - mn <= it_hi t)%Z -> (mx - mn <= 2 ^ 53)%Z ->
  (exists f, i_fraction t mn mn mx = Ok f /\ fin f /\ B2R f = 0%R) /\
  (exists f, i_fraction t mx mn mx = Ok f /\ fin f /\ B2R f = 1%R) /\
  (forall u v, (mn <= u)%Z -> (u <= v)%Z -> (v <= mx)%Z ->
     exists f g, i_fraction t u mn mx = Ok f /\ i_fraction t v mn mx = Ok g /\ (0 <= B2R f <= B2R g)%R /\ (B2R g <= 1)%R) /\
  ((mx - mn <= 2 ^ 52)%Z -> forall v, (mn <= v <= mx)%Z ->
     exists f r, i_fraction t v mn mx = Ok f /\ i_interpolate t f mn mx = Ok r /\ (r = v \/ r = v - 1)%Z).
Proof. exact fraction_int. Qed.
Print Assumptions C74_fraction_partial.
(** ... fraction for ends at any distance ... *)
Theorem C74_fraction_any_width_partial : forall t mn mx, usual t -> z_ok t mn -> z_ok t mx -> (mn < mx)%Z ->
  (it_signed t = true -> (32 <= it_bits t)%Z -> (it_hi t < mx - mn)%Z -> forall v, (mn <= v <= mx)%Z -> i_fraction t v mn mx = UB) /\
  (it_signed t = false \/ (it_bits t < 32)%Z \/ (mx - mn <= it_hi t)%Z ->
     (forall v, (mn <= v <= mx)%Z -> exists f, i_fraction t v mn mx = Ok f /\ fin f /\
        B2R f = rnd (rnd (IZR (v - mn)) / rnd (IZR (mx - mn))) /\ (0 <= B2R f <= 1)%R /\
        (v = mn -> B2R f = 0%R) /\ (v = mx -> B2R f = 1%R)) /\
     (forall u v f g, (mn <= u)%Z -> (u <= v)%Z -> (v <= mx)%Z -> i_fraction t u mn mx = Ok f -> i_fraction t v mn mx = Ok g ->
        (B2R f <= B2R g)%R)).
Proof. exact fraction_any_width. Qed.
Print Assumptions C74_fraction_any_width_partial.
(** ... an error that happens: 1 of [0, 49] comes back as 0.  The fraction of an empty
    integer range is 0, not a NaN.  value_range<int>::interpolate truncates the fraction. *)
Theorem C74_round_trip_refuted : exists v, v = 1%Z /\
  (let! f := i_fraction (ITy true 32) v 0 49 in i_interpolate (ITy true 32) f 0 49) = Ok 0%Z /\
  omap B2SF (i_fraction (ITy true 32) 7 7 7) = Ok (SpecFloat.S754_zero false) /\
  vr_interpolate_int (ITy true 32) (VR 10 20)%Z (ddiv (of_int 1) (of_int 2)) = Ok 10%Z /\
  i_interpolate (ITy true 32) (ddiv (of_int 1) (of_int 2)) 10 20 = Ok 15%Z.
Proof. exact (ex_intro _ _ (conj eq_refl (conj eq_refl (conj eq_refl (conj eq_refl eq_refl))))). Qed.
Print Assumptions C74_round_trip_refuted.
(** doubles: monotone, and exact at 0 ... *)
Theorem C74_double_monotone_partial : forall f g mn mx : double, fin (d_interpolate f mn mx) -> fin (d_interpolate g mn mx) ->
  (B2R mn <= B2R mx)%R -> (B2R f <= B2R g)%R -> (B2R (d_interpolate f mn mx) <= B2R (d_interpolate g mn mx))%R.
Proof. exact d_interpolate_mono. Qed.
Print Assumptions C74_double_monotone_partial.
Theorem C74_double_at_0_partial : forall f mn mx : double, fin f -> B2R f = 0%R -> fin (dsub mx mn) ->
  fin (d_interpolate f mn mx) /\ B2R (d_interpolate f mn mx) = B2R mn.
Proof. exact d_interpolate_0. Qed.
Print Assumptions C74_double_at_0_partial.
(** ... inside, and exact at both ends, if max - min is exact; fraction is 0 at min, 1 at max, in
    [0, 1] between and monotone if max - min is finite ... *)
Theorem C74_double_exact_width_partial : forall mn mx w f : double, fin mn -> fin mx -> fin w -> B2R w = (B2R mx - B2R mn)%R -> (B2R mn <= B2R mx)%R ->
  fin f -> (0 <= B2R f <= 1)%R ->
  fin (d_interpolate f mn mx) /\ (B2R mn <= B2R (d_interpolate f mn mx) <= B2R mx)%R /\
  (B2R f = 0%R -> B2R (d_interpolate f mn mx) = B2R mn) /\ (B2R f = 1%R -> B2R (d_interpolate f mn mx) = B2R mx).
Proof. exact interpolate_exact_width. Qed.
Print Assumptions C74_double_exact_width_partial.
Theorem C74_double_fraction_partial : forall mn mx : double, fin mn -> fin (dsub mx mn) -> (B2R mn < B2R mx)%R ->
  (fin (d_fraction mn mn mx) /\ B2R (d_fraction mn mn mx) = 0%R) /\
  (fin (d_fraction mx mn mx) /\ B2R (d_fraction mx mn mx) = 1%R) /\
  (forall u v : double, fin u -> fin v -> (B2R mn <= B2R u)%R -> (B2R u <= B2R v)%R -> (B2R v <= B2R mx)%R ->
     fin (d_fraction u mn mx) /\ fin (d_fraction v mn mx) /\
     (0 <= B2R (d_fraction u mn mx) <= B2R (d_fraction v mn mx))%R /\ (B2R (d_fraction v mn mx) <= 1)%R) /\
  (forall v : double, fin v -> (B2R mn <= B2R v <= B2R mx)%R ->
     B2R (d_fraction v mn mx) = rnd (rnd (B2R v - B2R mn) / rnd (B2R mx - B2R mn))).
Proof. exact fraction_double. Qed.
Print Assumptions C74_double_fraction_partial.
(** ... as members of a range: the parameter of interpolate has the value type, so an integer range
    gives min for every fraction below 1 ... *)
Theorem C74_members_int_partial : forall t r, usual t -> z_ok t (vmin r) -> z_ok t (vmax r) -> (vmin r < vmax r)%Z -> (vmax r - vmin r <= it_hi t)%Z -> (vmax r - vmin r <= 2 ^ 53)%Z ->
  (forall f : double, fin f -> (0 <= B2R f < 1)%R -> vr_interpolate_int t r f = Ok (vmin r)) /\
  (forall f : double, fin f -> B2R f = 1%R -> vr_interpolate_int t r f = Ok (vmax r)) /\
  (exists f, vr_fraction_int t r (vmin r) = Ok f /\ fin f /\ B2R f = 0%R) /\
  (exists f, vr_fraction_int t r (vmax r) = Ok f /\ fin f /\ B2R f = 1%R) /\
  (forall u v, (vmin r <= u)%Z -> (u <= v)%Z -> (v <= vmax r)%Z ->
     exists f g, vr_fraction_int t r u = Ok f /\ vr_fraction_int t r v = Ok g /\ (0 <= B2R f <= B2R g)%R /\ (B2R g <= 1)%R).
Proof. exact members_int. Qed.
Print Assumptions C74_members_int_partial.
Theorem C74_members_double_partial : forall r : vrange double, fin (vmin r) -> fin (dsub (vmax r) (vmin r)) -> (B2R (vmin r) < B2R (vmax r))%R ->
  (forall f : double, fin f -> B2R f = 0%R -> fin (vr_interpolate_double r f) /\ B2R (vr_interpolate_double r f) = B2R (vmin r)) /\
  (forall f w : double, fin w -> B2R w = (B2R (vmax r) - B2R (vmin r))%R -> fin f -> (0 <= B2R f <= 1)%R ->
     fin (vr_interpolate_double r f) /\ (B2R (vmin r) <= B2R (vr_interpolate_double r f) <= B2R (vmax r))%R /\
     (B2R f = 1%R -> B2R (vr_interpolate_double r f) = B2R (vmax r))) /\
  (fin (vr_fraction_double r (vmin r)) /\ B2R (vr_fraction_double r (vmin r)) = 0%R) /\
  (fin (vr_fraction_double r (vmax r)) /\ B2R (vr_fraction_double r (vmax r)) = 1%R) /\
  (forall u v : double, fin u -> fin v -> (B2R (vmin r) <= B2R u)%R -> (B2R u <= B2R v)%R -> (B2R v <= B2R (vmax r))%R ->
     fin (vr_fraction_double r u) /\ fin (vr_fraction_double r v) /\
     (0 <= B2R (vr_fraction_double r u) <= B2R (vr_fraction_double r v))%R /\ (B2R (vr_fraction_double r v) <= 1)%R).
Proof. exact members_double. Qed.
Print Assumptions C74_members_double_partial.
(** ... but interpolate(1, a, b) need not be b, nor stay in [a, b], nor even be finite;
    interpolate(0, -max, max) is a NaN; and fraction(interpolate(0.1, 1, 2), 1, 2) is not 0.1. *)
Theorem C74_double_refuted : exists one : double, one = of_int 1 /\
  B2SF (d_interpolate one (of_int (10 ^ 16)%Z) one) = SpecFloat.S754_zero false /\
  Bcompare (d_interpolate one (of_int (-1)) (ddiv (of_int 3) (of_int (2 ^ 54)%Z))) (ddiv (of_int 3) (of_int (2 ^ 54)%Z)) = Some Gt /\
  B2SF (d_interpolate one (Bldexp mode_NE (of_int 3) 970) flt_max) = SpecFloat.S754_infinity false /\
  B2SF (d_interpolate (of_int 0) (Bopp flt_max) flt_max) = SpecFloat.S754_nan /\
  Bcompare (d_fraction (d_interpolate (ddiv one (of_int 10)) one (of_int 2)) one (of_int 2)) (ddiv one (of_int 10)) = Some Gt.
Proof. exact (ex_intro _ _ (conj eq_refl (conj eq_refl (conj eq_refl (conj eq_refl (conj eq_refl eq_refl)))))). Qed.
Print Assumptions C74_double_refuted.
Example C74_nonvacuous : i_interpolate (ITy true 32) (ddiv (of_int 35) (of_int 100)) 0 10 = Ok 3%Z /\ usual (ITy true 32) /\
  i_interpolate (ITy true 8) (of_int 1) (-100) 100 = UB /\
  B2SF (d_interpolate (ddiv (of_int 35) (of_int 100)) (of_int 10) (of_int 20)) = B2SF (ddiv (of_int 135) (of_int 10)).
Proof. vm_compute. repeat split. auto. Qed.

(** C79.  In builds with assertions a new end is accepted exactly if a value stays inside.
    Integers, away from the end where the neighbour does not exist ... *)
Theorem C79_set_min_int_partial : forall b t lk hk r x, usual t -> z_ok t x -> (lk = opened -> (x < it_hi t)%Z) -> b <> Release ->
  (inhabited lk hk (VR x (vmax r)) -> set_min zcmp b lk hk (int_next t) r x = Ok (VR x (vmax r))) /\
  (~ inhabited lk hk (VR x (vmax r)) -> assertion_fails b (set_min zcmp b lk hk (int_next t) r x)).
Proof. exact set_min_int. Qed.
Print Assumptions C79_set_min_int_partial.
Theorem C79_set_max_int_partial : forall b t lk hk r x, usual t -> z_ok t x -> (hk = opened -> (it_lo t < x)%Z) -> b <> Release ->
  (inhabited lk hk (VR (vmin r) x) -> set_max zcmp b lk hk (int_prev t) r x = Ok (VR (vmin r) x)) /\
  (~ inhabited lk hk (VR (vmin r) x) -> assertion_fails b (set_max zcmp b lk hk (int_prev t) r x)).
Proof. exact set_max_int. Qed.
Print Assumptions C79_set_max_int_partial.
(** ... floating-point values, away from where next_value or prev_value goes wrong ... *)
Theorem C79_set_min_float_partial : forall prec emax (Hp : Prec_gt_0 prec) (He : Prec_lt_emax prec emax) b lk hk r (x : binary_float prec emax),
  b <> Release -> fin (vmax r) -> fin x -> (lk = opened -> (B2R x < B2R (flt_max : binary_float prec emax))%R) ->
  (holds_float lk hk (VR x (vmax r)) -> flt_set_min b lk hk r x = Ok (VR x (vmax r))) /\
  (~ holds_float lk hk (VR x (vmax r)) -> assertion_fails b (flt_set_min b lk hk r x)).
Proof. exact set_min_flt. Qed.
Print Assumptions C79_set_min_float_partial.
Theorem C79_set_max_float_partial : forall prec emax (Hp : Prec_gt_0 prec) (He : Prec_lt_emax prec emax) b lk hk r (x : binary_float prec emax),
  b <> Release -> fin (vmin r) -> fin x -> (hk = opened -> (bpow radix2 (2 - emax) < B2R x)%R) ->
  (holds_float lk hk (VR (vmin r) x) -> flt_set_max b lk hk r x = Ok (VR (vmin r) x)) /\
  (~ holds_float lk hk (VR (vmin r) x) -> assertion_fails b (flt_set_max b lk hk r x)).
Proof. exact set_max_flt. Qed.
Print Assumptions C79_set_max_float_partial.
(** The exceptions exactly.  An open end at the extreme integer: undefined for int and wider,
    and for the other types the check is made against the value at the other extreme. *)
Theorem C79_set_min_extreme_partial : forall b t hk r, usual t -> b <> Release ->
  if it_signed t && (32 <=? it_bits t)%Z then set_min zcmp b opened hk (int_next t) r (it_hi t) = UB
  else (before_end Z.le hk (vmax r) (it_lo t) -> set_min zcmp b opened hk (int_next t) r (it_hi t) = Ok (VR (it_hi t) (vmax r))) /\
       (~ before_end Z.le hk (vmax r) (it_lo t) -> assertion_fails b (set_min zcmp b opened hk (int_next t) r (it_hi t))).
Proof. exact set_min_edge. Qed.
Print Assumptions C79_set_min_extreme_partial.
Theorem C79_set_max_extreme_partial : forall b t lk r, usual t -> b <> Release ->
  if it_signed t && (32 <=? it_bits t)%Z then set_max zcmp b lk opened (int_prev t) r (it_lo t) = UB
  else (after_start Z.le lk (vmin r) (it_hi t) -> set_max zcmp b lk opened (int_prev t) r (it_lo t) = Ok (VR (vmin r) (it_lo t))) /\
       (~ after_start Z.le lk (vmin r) (it_hi t) -> assertion_fails b (set_max zcmp b lk opened (int_prev t) r (it_lo t))).
Proof. exact set_max_edge. Qed.
Print Assumptions C79_set_max_extreme_partial.
(** An open minimum at the largest float is accepted exactly if the maximum is closed and
    the same value; an open maximum at or below the smallest normal number is checked
    against the float above it instead of the one below. *)
Theorem C79_set_min_largest_partial : forall prec emax (Hp : Prec_gt_0 prec) (He : Prec_lt_emax prec emax) b hk r (x : binary_float prec emax),
  b <> Release -> fin (vmax r) -> fin x -> B2R x = B2R (flt_max : binary_float prec emax) ->
  (hk = closed /\ B2R (vmax r) = B2R x -> flt_set_min b opened hk r x = Ok (VR x (vmax r))) /\
  (~ (hk = closed /\ B2R (vmax r) = B2R x) -> assertion_fails b (flt_set_min b opened hk r x)).
Proof. exact set_min_flt_edge. Qed.
Print Assumptions C79_set_min_largest_partial.
Theorem C79_set_max_wrong_way_partial : forall prec emax (Hp : Prec_gt_0 prec) (He : Prec_lt_emax prec emax) b lk r (x : binary_float prec emax),
  b <> Release -> fin (vmin r) -> fin x -> (B2R x <= bpow radix2 (2 - emax))%R ->
  exists y : binary_float prec emax,
    (B2R x < bpow radix2 (2 - emax) -> next_up x y)%R /\ (B2R x = bpow radix2 (2 - emax) -> fin y /\ B2R y = B2R x)%R /\
    (after_start (ext_le prec emax) lk (vmin r) y -> flt_set_max b lk opened r x = Ok (VR (vmin r) x)) /\
    (~ after_start (ext_le prec emax) lk (vmin r) y -> assertion_fails b (flt_set_max b lk opened r x)).
Proof. exact set_max_flt_edge. Qed.
Print Assumptions C79_set_max_wrong_way_partial.
(** ... there it does not: the smallest int is undefined, the smallest int8_t wraps around,
    and [-2, -1) accepts the maximum -2 because prev_value(-2.0) is above -2. *)
Theorem C79_refuted : exists r : vrange Z, r = VR (-5)%Z 5%Z /\
  set_max zcmp DebugThrow closed opened (int_prev (ITy true 32)) r (- 2 ^ 31)%Z = UB /\
  set_max zcmp DebugThrow closed opened (int_prev (ITy true 8)) r (-128)%Z = Ok (VR (-5) (-128))%Z /\
  set_min zcmp DebugThrow opened closed (int_next (ITy true 8)) r 127%Z = Ok (VR 127 5)%Z /\
  omap (fun q => B2SF (vmax q)) (flt_set_max DebugThrow closed opened (VR (of_int (-2)) (of_int (-1))) (of_int (-2))) = Ok (B2SF (of_int (-2))).
Proof. exact (ex_intro _ _ (conj eq_refl (conj eq_refl (conj eq_refl (conj eq_refl eq_refl))))). Qed.
Print Assumptions C79_refuted.
Example C79_nonvacuous : set_min zcmp DebugThrow opened opened (int_next (ITy true 32)) (VR 0 5)%Z 3%Z = Ok (VR 3 5)%Z /\
  set_min zcmp DebugThrow opened opened (int_next (ITy true 32)) (VR 0 5)%Z 4%Z = Throw logic_error /\
  set_min zcmp DebugAbort closed closed (int_next (ITy true 32)) (VR 0 5)%Z 6%Z = Terminate /\
  set_min zcmp Release closed closed (int_next (ITy true 32)) (VR 0 5)%Z 6%Z = Ok (VR 6 5)%Z.
Proof. vm_compute. repeat split. Qed.

(** C80.  clamp() brings a value into closed bounds and leaves it alone if inside ... *)
Theorem C80_clamp_partial : forall T (ok : T -> Prop) cmp le, ordered ok cmp le -> forall x r, valid ok le r -> ok x ->
  exists y, bv_clamp cmp (x, r) = Ok (y, r) /\ is_in_bounds cmp closed closed (y, r) = true /\
    (is_in_bounds cmp closed closed (x, r) = true -> y = x).
Proof. exact @bounded_clamp. Qed.
Print Assumptions C80_clamp_partial.
(** ... whatever the kinds of the bounds, the value is in them afterwards exactly if it was
    or the end it was moved to is closed (and does not coincide with an open one) ... *)
Theorem C80_clamp_any_partial : forall T (ok : T -> Prop) cmp le, ordered ok cmp le -> forall lk hk x r, valid ok le r -> ok x ->
  exists y, bv_clamp cmp (x, r) = Ok (y, r) /\
    (is_in_bounds cmp lk hk (x, r) = true -> y = x) /\
    (is_in_bounds cmp lk hk (y, r) = true <->
       is_in_bounds cmp lk hk (x, r) = true \/
       (lk = closed /\ lt_of le x (vmin r) /\ (hk = closed \/ lt_of le (vmin r) (vmax r))) \/
       (hk = closed /\ lt_of le (vmax r) x /\ (lk = closed \/ lt_of le (vmin r) (vmax r)))).
Proof. exact @bv_clamp_kinds. Qed.
Print Assumptions C80_clamp_any_partial.
(** ... so not always into open ones ... *)
Theorem C80_open_refuted : exists v : bounded, v = (12, VR 0 10)%Z /\ bv_clamp zcmp v = Ok (10, VR 0 10)%Z /\ is_in_bounds zcmp opened opened (10, VR 0 10)%Z = false.
Proof. exact (ex_intro _ _ (conj eq_refl (conj eq_refl eq_refl))). Qed.
Print Assumptions C80_open_refuted.
(** ... the default bounds admit every integer ... *)
Theorem C80_default_int_partial : forall b t v, usual t -> z_ok t v ->
  exists r, int_default_bounds b t = Ok r /\ is_in_bounds zcmp closed closed (v, r) = true.
Proof. exact default_bounds_int. Qed.
Print Assumptions C80_default_int_partial.
(** ... but of the floating-point values only those from the smallest positive normal number up. *)
Theorem C80_default_float : forall prec emax (Hp : Prec_gt_0 prec) (He : Prec_lt_emax prec emax) (x : binary_float prec emax), fin x ->
  (contains Bcompare closed closed (VR (flt_min : binary_float prec emax) (flt_max : binary_float prec emax)) x = true <-> (bpow radix2 (2 - emax) <= B2R x)%R).
Proof. exact default_bounds_contains. Qed.
Print Assumptions C80_default_float.
Theorem C80_default_float_refuted : exists x : double, x = of_int 0 /\
  (let! r := flt_default_bounds DebugThrow in Ok (is_in_bounds Bcompare closed closed (x, r))) = Ok false.
Proof. exact (ex_intro _ _ (conj eq_refl eq_refl)). Qed.
Print Assumptions C80_default_float_refuted.
Example C80_nonvacuous : bv_clamp zcmp (12, VR 0 10)%Z = Ok (10, VR 0 10)%Z /\ bv_clamp zcmp (7, VR 0 10)%Z = Ok (7, VR 0 10)%Z.
Proof. split; reflexivity. Qed.

(** C81.  A NaN is inside every range, open or closed. *)
Theorem C81_nan_refuted : forall prec emax lk hk (r : vrange (binary_float prec emax)), contains Bcompare lk hk r B754_nan = true.
Proof. exact nan_contained. Qed.
Print Assumptions C81_nan_refuted.
(** Values that are not NaN are inside exactly if they are in the interval. *)
Theorem C81_other_values_partial : forall prec emax lk hk (r : vrange (binary_float prec emax)) x,
  not_nan prec emax (vmin r) -> not_nan prec emax (vmax r) -> not_nan prec emax x ->
  (contains Bcompare lk hk r x = true <-> in_interval (ext_le prec emax) lk hk r x).
Proof. exact (fun prec emax => Range_Proofs.contains_iff _ _ _ (float_ordered prec emax)). Qed.
Print Assumptions C81_other_values_partial.
Example C81_nonvacuous : contains Bcompare opened opened (VR (of_int 0) (of_int 1)) (ddiv (of_int 1) (of_int 3)) = true /\
  contains Bcompare opened opened (VR (of_int 0) (of_int 1)) (of_int 1) = false /\ contains Bcompare closed closed (VR (of_int 0) (of_int 0)) (B754_zero true) = true.
Proof. vm_compute. repeat split. Qed.

(** C82.  The middle of a double range lies inside, if max - min does not overflow ... *)
Theorem C82_mid_inside_partial : forall b (r : vrange double), fin (vmin r) -> fin (vmax r) -> (B2R (vmin r) <= B2R (vmax r))%R ->
  fin (dsub (vmax r) (vmin r)) ->
  exists m, vr_mid_double b r = Ok m /\ fin m /\ (B2R (vmin r) <= B2R m <= B2R (vmax r))%R.
Proof. exact mid_double. Qed.
Print Assumptions C82_mid_inside_partial.
(** ... and if it overflows the middle is minus infinity ... *)
Theorem C82_mid_overflow_partial : forall b (r : vrange double), fin (vmin r) -> fin (vmax r) -> (B2R (vmin r) <= B2R (vmax r))%R ->
  is_finite (dsub (vmax r) (vmin r)) = false -> vr_mid_double b r = Ok (B754_infinity true).
Proof. exact mid_overflow. Qed.
Print Assumptions C82_mid_overflow_partial.
(** ... as that of [-max, max]. *)
Theorem C82_overflow_refuted : exists r : vrange double, r = VR (Bopp flt_max) flt_max /\ omap B2SF (vr_mid_double Release r) = Ok (SpecFloat.S754_infinity true).
Proof. exact (ex_intro _ _ (conj eq_refl eq_refl)). Qed.
Print Assumptions C82_overflow_refuted.
Example C82_nonvacuous : omap B2SF (vr_mid_double DebugThrow (VR (of_int 1) (of_int 4))) = Ok (B2SF (ddiv (of_int 5) (of_int 2))).
Proof. reflexivity. Qed.
