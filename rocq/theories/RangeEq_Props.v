(** C97: equality and emptiness of ranges. *)
From Coq Require Import Reals.
From Flocq Require Import Core IEEE754.BinarySingleNaN.
From Verif Require Import Base Range_Model Range_Spec Float_Model Float_Spec RangeEq_Proofs.

(** C97.  Ranges whose ends are not NaNs are equal if their ends are; this is an equivalence ... *)
Theorem C97_equal_partial : forall T (ok : T -> Prop) cmp le, ordered ok cmp le -> forall r s,
  ok (vmin r) /\ ok (vmax r) -> ok (vmin s) /\ ok (vmax s) -> (vr_eq cmp r s = true <-> same_range le r s).
Proof. exact @eq_range. Qed.
Print Assumptions C97_equal_partial.
Theorem C97_equivalence_partial : forall T (ok : T -> Prop) cmp le, ordered ok cmp le ->
  (forall r, ok (vmin r) /\ ok (vmax r) -> vr_eq cmp r r = true) /\
  (forall r s, ok (vmin r) /\ ok (vmax r) -> ok (vmin s) /\ ok (vmax s) -> vr_eq cmp r s = vr_eq cmp s r) /\
  (forall r s t, ok (vmin r) /\ ok (vmax r) -> ok (vmin s) /\ ok (vmax s) -> ok (vmin t) /\ ok (vmax t) ->
     vr_eq cmp r s = true -> vr_eq cmp s t = true -> vr_eq cmp r t = true).
Proof. exact @equivalence. Qed.
Print Assumptions C97_equivalence_partial.
(** ... but with a NaN a range is not equal to itself ... *)
Theorem C97_nan_refuted : exists r : vrange double, vr_eq Bcompare r r = false.
Proof. exact (ex_intro _ (VR B754_nan (B754_zero false)) eq_refl). Qed.
Print Assumptions C97_nan_refuted.
(** ... equal ranges have the same members, whatever the kinds of their ends ... *)
Theorem C97_same_members : forall T (ok : T -> Prop) cmp le, ordered ok cmp le -> forall r s,
  ok (vmin r) /\ ok (vmax r) -> ok (vmin s) /\ ok (vmax s) -> vr_eq cmp r s = true ->
  forall lk hk x, ok x -> contains cmp lk hk r x = contains cmp lk hk s x.
Proof. exact @eq_members. Qed.
Print Assumptions C97_same_members.
(** ... and closed ranges with the same members are equal ... *)
Theorem C97_closed_extensional_partial : forall T (ok : T -> Prop) cmp le, ordered ok cmp le -> forall r s, valid ok le r -> valid ok le s ->
  (vr_eq cmp r s = true <-> forall x, ok x -> contains cmp closed closed r x = contains cmp closed closed s x).
Proof. exact @closed_members. Qed.
Print Assumptions C97_closed_extensional_partial.
(** ... but not open ones: both of these have no member ... *)
Theorem C97_extensional_refuted : exists r s : vrange Z, r = VR 1%Z 2%Z /\ s = VR 5%Z 6%Z /\ valid (z_ok (ITy true 32)) Z.le r /\ valid (z_ok (ITy true 32)) Z.le s /\
  (forall x, contains zcmp opened opened r x = false /\ contains zcmp opened opened s x = false) /\ vr_eq zcmp r s = false.
Proof. exact open_extensional. Qed.
Print Assumptions C97_extensional_refuted.

(** empty() says whether a half-open range has no member ... *)
Theorem C97_empty_half_open_partial : forall T (ok : T -> Prop) cmp le, ordered ok cmp le -> forall r lk hk, valid ok le r -> lk <> hk ->
  (vr_empty cmp r = true <-> forall x, ok x -> contains cmp lk hk r x = false).
Proof. exact @empty_half. Qed.
Print Assumptions C97_empty_half_open_partial.
(** ... an open range for which it holds has none ... *)
Theorem C97_empty_open_partial : forall T (ok : T -> Prop) cmp le, ordered ok cmp le -> forall r, valid ok le r -> vr_empty cmp r = true ->
  forall x, ok x -> contains cmp opened opened r x = false.
Proof. exact @empty_open. Qed.
Print Assumptions C97_empty_open_partial.
(** ... a closed range always has a member, and empty() says that it has no two different ones ... *)
Theorem C97_empty_closed_partial : forall T (ok : T -> Prop) cmp le, ordered ok cmp le -> forall r, valid ok le r ->
  (exists x, ok x /\ contains cmp closed closed r x = true) /\
  (vr_empty cmp r = true <->
   forall x y, ok x -> ok y -> contains cmp closed closed r x = true -> contains cmp closed closed r y = true -> le x y /\ le y x).
Proof. exact @empty_closed. Qed.
Print Assumptions C97_empty_closed_partial.
(** ... so the closed range [3, 3] is "empty" with a member, and the open range (1, 2) of
    integers is not "empty" without one. *)
Theorem C97_empty_refuted : exists r s : vrange Z, r = VR 3%Z 3%Z /\ s = VR 1%Z 2%Z /\ valid (z_ok (ITy true 32)) Z.le r /\ valid (z_ok (ITy true 32)) Z.le s /\
  vr_empty zcmp r = true /\ contains zcmp closed closed r 3%Z = true /\
  vr_empty zcmp s = false /\ forall x, contains zcmp opened opened s x = false.
Proof. exact empty_wrong. Qed.
Print Assumptions C97_empty_refuted.
(** A range is empty() exactly if its size() is zero, for integers and finite doubles. *)
Theorem C97_empty_size : forall b t r, usual t -> valid (z_ok t) Z.le r -> (vr_empty zcmp r = true <-> vr_size b t r = Ok 0%Z).
Proof. exact size_zero. Qed.
Print Assumptions C97_empty_size.
Theorem C97_empty_size_double : forall b (r : vrange double), fin (vmin r) -> fin (vmax r) -> (B2R (vmin r) <= B2R (vmax r))%R ->
  exists w, vr_size_double b r = Ok w /\ (vr_empty Bcompare r = true <-> fin w /\ B2R w = 0%R).
Proof. exact size_zero_double. Qed.
Print Assumptions C97_empty_size_double.
Example C97_nonvacuous : valid (z_ok (ITy true 32)) Z.le (VR (-10) 10)%Z /\ vr_eq zcmp (VR (-10) 10)%Z (VR (-10) 10)%Z = true /\
  vr_eq zcmp (VR (-10) 10)%Z (VR (-10) 11)%Z = false /\ vr_eq zcmp (VR (-10) 10)%Z (VR (-9) 10)%Z = false /\
  vr_empty zcmp (VR (-10) 10)%Z = false /\ vr_empty zcmp (VR 10 10)%Z = true /\ vr_size DebugThrow (ITy true 32) (VR 10 10)%Z = Ok 0%Z /\
  vr_eq Bcompare (VR (B754_zero false : double) (B754_infinity false)) (VR (B754_zero true) (B754_infinity false)) = true.
Proof. repeat split; vm_compute; congruence. Qed.
