(** C132: stepping through values with next_value and prev_value. *)
From Coq Require Import List Sorted Lia ZArith Reals. Import ListNotations.
From Flocq Require Import Core IEEE754.BinarySingleNaN.
From Verif Require Import Base Range_Model Range_Spec Float_Model Float_Spec Walk_Spec Walk_Proofs.

(** Integers: all values from the first to the last, the greatest and the smallest of the type included. *)
Theorem C132_integers_up : forall t a b, usual t -> z_ok t a -> z_ok t b -> (a <= b)%Z ->
  visits zcmp (int_next t) a b (map (fun k => a + Z.of_nat k)%Z (seq 0 (Z.to_nat (b - a + 1)))).
Proof. exact int_up. Qed.
Print Assumptions C132_integers_up.
Theorem C132_integers_down : forall t a b, usual t -> z_ok t a -> z_ok t b -> (b <= a)%Z ->
  visits zcmp (int_prev t) a b (map (fun k => a - Z.of_nat k)%Z (seq 0 (Z.to_nat (a - b + 1)))).
Proof. exact int_down. Qed.
Print Assumptions C132_integers_down.

(** Floating point, upwards: exactly the values of the type between the two, each once and in order. *)
Theorem C132_floats_up : forall prec emax (Hp : Prec_gt_0 prec) (He : Prec_lt_emax prec emax) (first last : binary_float prec emax),
  fin first -> fin last -> (B2R first <= B2R last)%R ->
  exists l, visits Bcompare (fun v => Ok (flt_next v)) first last l /\ Forall (fun z => fin z) l /\ StronglySorted (fun a b => B2R a < B2R b)%R l /\
    forall y : binary_float prec emax, fin y -> (B2R first <= B2R y <= B2R last)%R <-> exists z, In z l /\ B2R z = B2R y.
Proof. exact float_up. Qed.
Print Assumptions C132_floats_up.

(** Downwards this is so if the last is not below the smallest positive normal number ... *)
Theorem C132_floats_down_partial : forall prec emax (Hp : Prec_gt_0 prec) (He : Prec_lt_emax prec emax) (first last : binary_float prec emax),
  fin first -> fin last -> (bpow radix2 (2 - emax) <= B2R last)%R -> (B2R last <= B2R first)%R ->
  exists l, visits Bcompare (fun v => Ok (flt_prev v)) first last l /\ Forall (fun z => fin z) l /\ StronglySorted (fun a b => B2R b < B2R a)%R l /\
    forall y : binary_float prec emax, fin y -> (B2R last <= B2R y <= B2R first)%R <-> exists z, In z l /\ B2R z = B2R y.
Proof. exact float_down. Qed.
Print Assumptions C132_floats_down_partial.
(** ... and otherwise the loop never ends. *)
Theorem C132_floats_down_never_ends : forall prec emax (Hp : Prec_gt_0 prec) (He : Prec_lt_emax prec emax) (first last : binary_float prec emax),
  fin first -> fin last -> (B2R last < B2R first)%R -> (B2R last < bpow radix2 (2 - emax))%R ->
  never_ends Bcompare (fun v => Ok (flt_prev v)) first last.
Proof. exact never_down. Qed.
Print Assumptions C132_floats_down_never_ends.
(** From 1.0 down to 0.0. *)
Theorem C132_floats_down_refuted : exists first last : double, first = of_int 1 /\ last = of_int 0 /\ fin first /\ fin last /\ (B2R last < B2R first)%R /\
  never_ends Bcompare (fun v => Ok (flt_prev v)) first last.
Proof. exact down_refuted. Qed.
Print Assumptions C132_floats_down_refuted.
(** Upwards to a smaller value it never ends either. *)
Theorem C132_floats_up_never_ends : forall prec emax (Hp : Prec_gt_0 prec) (He : Prec_lt_emax prec emax) (first last : binary_float prec emax),
  fin first -> fin last -> (B2R last < B2R first)%R -> never_ends Bcompare (fun v => Ok (flt_next v)) first last.
Proof. exact never_up. Qed.
Print Assumptions C132_floats_up_never_ends.

Example C132_nonvacuous :
  walk zcmp (int_next (ITy true 8)) 5 125%Z 127%Z = Ok [125; 126; 127]%Z /\
  walk zcmp (int_prev (ITy false 8)) 5 2%Z 0%Z = Ok [2; 1; 0]%Z /\
  (let! l := walk Bcompare (fun v : double => Ok (flt_next v)) 9 (flt_prev (flt_prev (of_int 1))) (flt_next (of_int 1)) in Ok (map B2SF l)) =
    Ok [SpecFloat.S754_finite false 9007199254740990 (-53); SpecFloat.S754_finite false 9007199254740991 (-53);
        SpecFloat.S754_finite false 4503599627370496 (-52); SpecFloat.S754_finite false 4503599627370497 (-52)] /\
  fin (of_int 1) /\ (bpow radix2 (2 - 1024) <= B2R (of_int 1))%R.
Proof.
  split; [vm_compute; reflexivity|]. split; [vm_compute; reflexivity|]. split; [vm_compute; reflexivity|]. split; [reflexivity|].
rewrite one_value. apply (bpow_le radix2 (2 - 1024) 0). lia.
Qed.
