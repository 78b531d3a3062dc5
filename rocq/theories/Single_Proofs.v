From Coq Require Import Reals Psatz.
From Flocq Require Import Core IEEE754.BinarySingleNaN Plus_error.
From Verif Require Import Base BaseFacts Range_Model Range_Spec Range_Proofs IntRange_Proofs Float_Model Float_Spec Float_Proofs Interp_Proofs Frac_Proofs Single_Model Single_Spec.
Local Open Scope R_scope.
#[local] Instance dv1 : Valid_exp dexp := fexp_correct 53 1024 double_prec.
#[local] Instance dm1 : Monotone_exp dexp := fexp_monotone 53 1024.
Notation sexp := (SpecFloat.fexp 24 128).
Notation srnd := to_float.
#[local] Instance sv1 : Valid_exp sexp := fexp_correct 24 128 single_prec.
#[local] Instance sm1 : Monotone_exp sexp := fexp_monotone 24 128.

Lemma sfmt_B (x : single) : generic_format radix2 sexp (B2R x).
Proof. apply generic_format_B2R. Qed.
Lemma sfmt_0 : generic_format radix2 sexp 0.
Proof. apply generic_format_0. Qed.
Lemma srnd_ge y x : generic_format radix2 sexp y -> y <= x -> y <= srnd x.
Proof. intros F L. rewrite <- (round_generic radix2 sexp ZnearestE y F). apply round_le; [typeclasses eauto..|auto]. Qed.
Lemma srnd_le y x : generic_format radix2 sexp y -> x <= y -> srnd x <= y.
Proof. intros F L. rewrite <- (round_generic radix2 sexp ZnearestE y F). apply round_le; [typeclasses eauto..|auto]. Qed.
Lemma srnd_mono x y : x <= y -> srnd x <= srnd y.
Proof. apply round_le; typeclasses eauto. Qed.
Lemma srnd_id x : generic_format radix2 sexp x -> srnd x = x.
Proof. apply round_generic; typeclasses eauto. Qed.
Lemma wider x : generic_format radix2 sexp x -> generic_format radix2 dexp x.
Proof. apply generic_inclusion_mag. intros _. unfold SpecFloat.fexp, SpecFloat.emin. lia. Qed.
Lemma bpow_128 : bpow radix2 128 < bpow radix2 1024.
Proof. apply bpow_lt. lia. Qed.

Lemma widen_exact (x : single) : fin x -> fin (widen x) /\ B2R (widen x) = B2R x.
Proof.
  intros F. destruct x as [s| | |s m e H]; try discriminate; [auto|].
  set (x := B754_finite s m e H : single). cbn [widen].
  pose proof (binary_normalize_correct 53 1024 double_prec double_emax mode_NE (SpecFloat.cond_Zopp s (Z.pos m)) e s) as C. cbv zeta in C.
  change (F2R (Float radix2 (SpecFloat.cond_Zopp s (Z.pos m)) e)) with (B2R x) in C.
  change (round_mode mode_NE) with ZnearestE in C. rewrite (round_generic _ _ _ (B2R x)) in C by (apply wider, sfmt_B).
  rewrite Rlt_bool_true in C.
  - destruct C as (C1 & C2 & _). auto.
  - apply Rlt_trans with (2 := bpow_128). apply abs_B2R_lt_emax.
Qed.
Lemma narrow_value (x : double) : fin x -> Rabs (B2R x) <= B2R (flt_max : single) ->
  exists k, narrow x = Ok k /\ fin k /\ B2R k = srnd (B2R x).
Proof.
  intros F L. destruct x as [s| | |s m e H]; try discriminate.
  - exists (B754_zero s). repeat split. cbn. symmetry. apply round_0. typeclasses eauto.
  - set (x := B754_finite s m e H : double) in *.
    destruct (widen_exact flt_max (max_finite 24 128 _ _)) as [W1 W2].
    assert (G : c_gt Bcompare (Babs x) (widen flt_max) = false).
    { unfold c_gt. rewrite (Bcompare_correct 53 1024 (Babs x) (widen flt_max)); [|reflexivity|auto]. rewrite B2R_Babs, W2.
      destruct (Rcompare_spec (Rabs (B2R x)) (B2R (flt_max : single))); auto; lra. }
    assert (N : narrow x = if c_gt Bcompare (Babs x) (widen flt_max) then UB else Ok (binary_normalize 24 128 _ _ mode_NE (SpecFloat.cond_Zopp s (Z.pos m)) e s)) by reflexivity.
    rewrite N, G. eexists. split; [reflexivity|].
    pose proof (binary_normalize_correct 24 128 single_prec single_emax mode_NE (SpecFloat.cond_Zopp s (Z.pos m)) e s) as C. cbv zeta in C.
    change (F2R (Float radix2 (SpecFloat.cond_Zopp s (Z.pos m)) e)) with (B2R x) in C.
    change (round_mode mode_NE) with ZnearestE in C. rewrite Rlt_bool_true in C; [destruct C as (C1 & C2 & _); auto|].
    apply Rle_lt_trans with (B2R (flt_max : single)).
    + apply Rabs_le. apply Rabs_le_inv in L. split.
      * apply srnd_ge; [apply generic_format_opp, sfmt_B|lra].
      * apply srnd_le; [apply sfmt_B|lra].
    + apply max_lt_emax.
Qed.
Lemma sover (x : single) s : B2SF x = binary_overflow 24 128 mode_NE s -> is_finite x = false.
Proof. unfold binary_overflow, overflow_to_inf. destruct x; try discriminate; auto. Qed.
Lemma ssub_finite (x y : single) : is_finite (ssub x y) = true -> is_finite x = true /\ is_finite y = true.
Proof. destruct x as [|[]| |[]], y as [|[]| |[]]; try discriminate; auto. Qed.
Lemma sadd_finite (x y : single) : is_finite (sadd x y) = true -> is_finite x = true /\ is_finite y = true.
Proof. destruct x as [|[]| |[]], y as [|[]| |[]]; try discriminate; auto. Qed.
Lemma ssub_value (x y : single) : is_finite (ssub x y) = true -> B2R (ssub x y) = srnd (B2R x - B2R y).
Proof.
  intros H. destruct (ssub_finite x y H) as [X Y]. pose proof (Bminus_correct 24 128 single_prec single_emax mode_NE x y X Y) as C.
  destruct (Rlt_bool _ _); [apply C|]. destruct C as [C _]. fold (ssub x y) in C. apply sover in C. congruence.
Qed.
Lemma sadd_value (x y : single) : is_finite (sadd x y) = true -> B2R (sadd x y) = srnd (B2R x + B2R y).
Proof.
  intros H. destruct (sadd_finite x y H) as [X Y]. pose proof (Bplus_correct 24 128 single_prec single_emax mode_NE x y X Y) as C.
  destruct (Rlt_bool _ _); [apply C|]. destruct C as [C _]. fold (sadd x y) in C. apply sover in C. congruence.
Qed.
Lemma sadd_value' (x y : single) : fin x -> fin y -> Rabs (srnd (B2R x + B2R y)) < bpow radix2 128 ->
  fin (sadd x y) /\ B2R (sadd x y) = srnd (B2R x + B2R y).
Proof.
  intros X Y H. pose proof (Bplus_correct 24 128 single_prec single_emax mode_NE x y X Y) as C.
  change (round_mode mode_NE) with ZnearestE in C. rewrite Rlt_bool_true in C by auto. destruct C as (C1 & C2 & _). auto.
Qed.

(** * fraction *)
Lemma ssub_0 (x y : single) : B2R y < B2R x -> 0 < srnd (B2R x - B2R y).
Proof.
  intros L. assert (0 <= srnd (B2R x - B2R y)) by (apply srnd_ge; [apply sfmt_0|lra]).
  assert (srnd (B2R x - B2R y) <> 0); [unfold Rminus|lra].
  apply (round_plus_neq_0 radix2 sexp ZnearestE); [apply sfmt_B|apply generic_format_opp, sfmt_B|lra].
Qed.
Lemma ssub_within (u mn mx : single) : fin u -> fin mn -> fin (ssub mx mn) -> B2R mn <= B2R u -> B2R u <= B2R mx ->
  fin (ssub u mn) /\ B2R (ssub u mn) = srnd (B2R u - B2R mn) /\ 0 <= B2R (ssub u mn) <= B2R (ssub mx mn).
Proof.
  intros U M D L H.
  pose proof (ssub_value mx mn D) as V. pose proof (abs_B2R_lt_emax 24 128 (ssub mx mn)) as E.
  assert (0 <= srnd (B2R u - B2R mn)) by (apply srnd_ge; [apply sfmt_0|lra]).
  assert (srnd (B2R u - B2R mn) <= B2R (ssub mx mn)) by (rewrite V; apply srnd_mono; lra).
  pose proof (Bminus_correct 24 128 single_prec single_emax mode_NE u mn U M) as C.
  change (round_mode mode_NE) with ZnearestE in C. rewrite Rlt_bool_true in C.
  - destruct C as (C1 & C2 & _). change (Bminus mode_NE u mn) with (ssub u mn) in C1, C2. rewrite C1. auto.
  - rewrite Rabs_pos_eq by auto. apply Rle_lt_trans with (2 := E). apply Rle_trans with (1 := H1). apply Rle_abs.
Qed.
Lemma s_fraction_value (v mn mx : single) : fin v -> fin mn -> fin (ssub mx mn) -> B2R mn < B2R mx -> B2R mn <= B2R v <= B2R mx ->
  fin (s_fraction v mn mx) /\ B2R (s_fraction v mn mx) = rnd (srnd (B2R v - B2R mn) / srnd (B2R mx - B2R mn)) /\
  0 <= B2R (s_fraction v mn mx) <= 1.
Proof.
  intros V M D L [A B]. destruct (ssub_finite _ _ D) as [X _].
  destruct (ssub_within v mn mx V M D A B) as (F & E & G).
  pose proof (ssub_value mx mn D) as W. assert (P : 0 < B2R (ssub mx mn)) by (rewrite W; now apply ssub_0).
  pose proof (div_unit _ _ G P) as [Q1 Q2].
  assert (0 <= rnd (B2R (ssub v mn) / B2R (ssub mx mn)) <= 1).
  { split; [apply rnd_ge_fmt; [apply fmt_0|auto]|apply rnd_le_fmt; [apply fmt_1|auto]]. }
  assert (K : s_fraction v mn mx = ddiv (widen (ssub v mn)) (widen (ssub mx mn))).
  { unfold s_fraction, c_eq. rewrite (Bcompare_correct 24 128 mx mn X M). rewrite Rcompare_Gt by auto. reflexivity. }
  destruct (widen_exact _ F) as [F1 F2]. destruct (widen_exact _ D) as [D1 D2].
  rewrite K. destruct (ddiv_value (widen (ssub v mn)) (widen (ssub mx mn)) F1) as [C1 C2]; rewrite ?F2, ?D2; [lra| |].
  - rewrite Rabs_pos_eq by lra. apply Rle_lt_trans with 1; [lra|]. change 1 with (bpow radix2 0). apply bpow_lt. lia.
  - rewrite C1, F2, D2. split; [auto|]. split; [now rewrite E, W|auto].
Qed.
Lemma fraction_single (mn mx : single) : fin mn -> fin (ssub mx mn) -> B2R mn < B2R mx ->
  (fin (s_fraction mn mn mx) /\ B2R (s_fraction mn mn mx) = 0) /\
  (fin (s_fraction mx mn mx) /\ B2R (s_fraction mx mn mx) = 1) /\
  (forall u v : single, fin u -> fin v -> B2R mn <= B2R u -> B2R u <= B2R v -> B2R v <= B2R mx ->
     fin (s_fraction u mn mx) /\ fin (s_fraction v mn mx) /\
     0 <= B2R (s_fraction u mn mx) <= B2R (s_fraction v mn mx) /\ B2R (s_fraction v mn mx) <= 1).
Proof.
  intros M D L. destruct (ssub_finite _ _ D) as [X _].
  assert (P : 0 < srnd (B2R mx - B2R mn)) by now apply ssub_0.
  split; [|split].
  - destruct (s_fraction_value mn mn mx) as (F & E & _); auto; [lra|]. split; [auto|]. rewrite E.
    replace (B2R mn - B2R mn) with 0 by lra. rewrite (srnd_id 0) by apply sfmt_0. unfold Rdiv. rewrite Rmult_0_l. apply round_0. typeclasses eauto.
  - destruct (s_fraction_value mx mn mx) as (F & E & _); auto; [lra|]. split; [auto|]. rewrite E.
    unfold Rdiv. rewrite Rinv_r by lra. apply round_generic; [typeclasses eauto|apply fmt_1].
  - intros u v U V A B C.
    destruct (s_fraction_value u mn mx) as (F & E & G); auto; [lra|].
    destruct (s_fraction_value v mn mx) as (F' & E' & G'); auto; [lra|].
    repeat split; auto; try lra. rewrite E, E'. apply round_le; [typeclasses eauto..|].
    apply Rmult_le_compat_r; [left; now apply Rinv_0_lt_compat|]. apply srnd_mono. lra.
Qed.

(** * interpolate *)
Lemma step_value (f : double) (w : single) : fin f -> fin w -> 0 <= B2R f <= 1 -> 0 <= B2R w ->
  exists k, narrow (dmul f (widen w)) = Ok k /\ fin k /\ B2R k = srnd (rnd (B2R f * B2R w)) /\ 0 <= B2R k <= B2R w.
Proof.
  intros F W L P. destruct (widen_exact w W) as [W1 W2].
  assert (A : 0 <= B2R f * B2R w <= B2R w) by nra.
  assert (B : 0 <= rnd (B2R f * B2R w) <= B2R w).
  { split; [apply rnd_ge_fmt; [apply fmt_0|lra]|apply rnd_le_fmt; [apply wider, sfmt_B|lra]]. }
  pose proof (le_max 24 128 single_prec single_emax w W) as X.
  destruct (dmul_value f (widen w) F W1) as [M1 M2]; rewrite W2 in *.
  - rewrite Rabs_pos_eq by lra. apply Rlt_trans with (2 := bpow_128). apply Rle_lt_trans with (B2R w); [lra|].
    apply Rle_lt_trans with (1 := X). apply max_lt_emax.
  - destruct (narrow_value (dmul f (widen w)) M2) as (k & K1 & K2 & K3).
    + rewrite M1, Rabs_pos_eq by lra. lra.
    + exists k. rewrite M1 in K3. repeat split; auto; rewrite K3; [apply srnd_ge; [apply sfmt_0|lra]|apply srnd_le; [apply sfmt_B|lra]].
Qed.
Lemma interpolate_single (mn mx : single) : fin mn -> fin (ssub mx mn) -> B2R mn <= B2R mx ->
  (forall f : double, fin f -> 0 <= B2R f <= 1 -> exists r, s_interpolate f mn mx = Ok r /\
     (fin r -> B2R r = srnd (B2R mn + srnd (rnd (B2R f * srnd (B2R mx - B2R mn)))) /\ B2R mn <= B2R r) /\
     (B2R f = 0 -> fin r /\ B2R r = B2R mn) /\
     ((exists w : single, B2R w = B2R mx - B2R mn) -> fin r /\ B2R mn <= B2R r <= B2R mx /\ (B2R f = 1 -> B2R r = B2R mx))) /\
  (forall f g r s, fin f -> fin g -> 0 <= B2R f -> B2R f <= B2R g -> B2R g <= 1 ->
     s_interpolate f mn mx = Ok r -> s_interpolate g mn mx = Ok s -> fin r -> fin s -> B2R r <= B2R s).
Proof.
  intros M D L. destruct (ssub_finite _ _ D) as [X _]. pose proof (ssub_value mx mn D) as V.
  assert (P : 0 <= B2R (ssub mx mn)) by (rewrite V; apply srnd_ge; [apply sfmt_0|lra]).
  assert (T : forall f, fin f -> 0 <= B2R f <= 1 -> exists k, s_interpolate f mn mx = Ok (sadd mn k) /\ fin k /\
    B2R k = srnd (rnd (B2R f * srnd (B2R mx - B2R mn))) /\ 0 <= B2R k <= B2R (ssub mx mn)).
  { intros f F H. destruct (step_value f (ssub mx mn) F D H P) as (k & K1 & K2 & K3 & K4).
    exists k. unfold s_interpolate. rewrite K1. cbn [obind]. rewrite V in K3. auto. }
  split.
  - intros f F H. destruct (T f F H) as (k & K1 & K2 & K3 & K4). exists (sadd mn k). split; [exact K1|]. split; [|split].
    + intros R. rewrite (sadd_value mn k R), K3. split; [reflexivity|]. rewrite <- K3. apply srnd_ge; [apply sfmt_B|lra].
    + intros Z. assert (K0 : B2R k = 0).
      { rewrite K3, Z, Rmult_0_l. rewrite (round_generic radix2 dexp ZnearestE 0) by apply fmt_0. apply srnd_id, sfmt_0. }
      destruct (sadd_value' mn k M K2) as [A1 A2].
      * rewrite K0, Rplus_0_r, srnd_id by apply sfmt_B. apply abs_B2R_lt_emax.
      * split; [exact A1|]. rewrite A2, K0, Rplus_0_r. apply srnd_id, sfmt_B.
    + intros (w & W). assert (E : srnd (B2R mx - B2R mn) = B2R mx - B2R mn) by (rewrite <- W; apply srnd_id, sfmt_B).
      rewrite E in V. rewrite V in K4.
      assert (B : B2R mn <= srnd (B2R mn + B2R k) <= B2R mx).
      { split; [apply srnd_ge; [apply sfmt_B|lra]|apply srnd_le; [apply sfmt_B|lra]]. }
      destruct (sadd_value' mn k M K2) as [A1 A2].
      { pose proof (abs_B2R_lt_emax 24 128 mn) as Q1. pose proof (abs_B2R_lt_emax 24 128 mx) as Q2.
        apply Rabs_lt. apply Rabs_lt_inv in Q1. apply Rabs_lt_inv in Q2. lra. }
      rewrite A2. repeat split; try apply B; [exact A1|]. intros O.
      rewrite K3, O, Rmult_1_l, E, <- W. rewrite (round_generic radix2 dexp ZnearestE (B2R w)) by (apply wider, sfmt_B).
      rewrite (srnd_id (B2R w)) by apply sfmt_B. rewrite W. replace (B2R mn + (B2R mx - B2R mn)) with (B2R mx) by lra. apply srnd_id, sfmt_B.
  - intros f g r s F G A B C E1 E2 R S.
    destruct (T f F ltac:(lra)) as (k & K1 & K2 & K3 & K4). destruct (T g G ltac:(lra)) as (j & J1 & J2 & J3 & J4).
    rewrite K1 in E1. rewrite J1 in E2. injection E1 as <-. injection E2 as <-.
    rewrite (sadd_value mn k R), (sadd_value mn j S). apply srnd_mono. apply Rplus_le_compat_l. rewrite K3, J3.
    apply srnd_mono. apply round_le; [typeclasses eauto..|]. apply Rmult_le_compat_r; [|auto]. rewrite <- V. exact P.
Qed.

Lemma range_members (r : vrange single) (f v : single) : fin f ->
  (exists g : double, fin g /\ B2R g = B2R f /\ vr_interpolate_float r f = s_interpolate g (vmin r) (vmax r)) /\
  vr_fraction_float r v = s_fraction v (vmin r) (vmax r).
Proof. intros F. destruct (widen_exact f F) as [A B]. split; [exists (widen f); auto|reflexivity]. Qed.
Lemma fraction_empty (v mn mx : single) : fin mn -> fin mx -> B2R mn = B2R mx -> is_nan (s_fraction v mn mx) = true.
Proof.
  intros A B E. unfold s_fraction, c_eq. rewrite (Bcompare_correct 24 128 mx mn B A). rewrite Rcompare_Eq by auto. reflexivity.
Qed.
Lemma endpoint_refuted : exists one : double, one = of_int 1 /\
  omap B2SF (s_interpolate one (float_of (-1) 0) (float_of 3 (-25))) = Ok (B2SF (float_of 1 (-23))) /\
  Bcompare (float_of 1 (-23)) (float_of 3 (-25)) = Some Gt /\
  omap B2SF (s_interpolate one (float_of 3 103) flt_max) = Ok (SpecFloat.S754_infinity false) /\
  s_interpolate (of_int 3) (float_of 0 0) flt_max = UB.
Proof. exact (ex_intro _ _ (conj eq_refl (conj eq_refl (conj eq_refl (conj eq_refl eq_refl))))). Qed.
Lemma float_of_value m : (m = 1 \/ m = 2 \/ m = 3)%Z -> B2R (float_of m 0) = IZR m.
Proof.
  assert (E1 : B2SF (float_of 1 0) = SpecFloat.S754_finite false 8388608 (-23)) by (vm_compute; reflexivity).
  assert (E2 : B2SF (float_of 2 0) = SpecFloat.S754_finite false 8388608 (-22)) by (vm_compute; reflexivity).
  assert (E3 : B2SF (float_of 3 0) = SpecFloat.S754_finite false 12582912 (-22)) by (vm_compute; reflexivity).
  intros [->|[->| ->]]; rewrite <- SF2R_B2SF; [rewrite E1|rewrite E2|rewrite E3]; unfold SF2R, F2R; simpl; lra.
Qed.
Lemma float_example : fin (float_of 1 0) /\ fin (ssub (float_of 3 0) (float_of 1 0)) /\ B2R (float_of 1 0) < B2R (float_of 3 0) /\
  exact_width (float_of 1 0) (float_of 3 0) /\
  omap B2SF (s_interpolate (ddiv (of_int 1) (of_int 4)) (float_of 1 0) (float_of 3 0)) = Ok (B2SF (float_of 3 (-1))) /\
  B2SF (s_fraction (float_of 3 (-1)) (float_of 1 0) (float_of 3 0)) = B2SF (ddiv (of_int 1) (of_int 4)).
Proof.
  assert (A := float_of_value 1 ltac:(auto)). assert (B := float_of_value 3 ltac:(auto)). assert (C := float_of_value 2 ltac:(auto)).
  split; [reflexivity|]. split; [reflexivity|]. split; [rewrite A, B; lra|]. split; [exists (float_of 2 0); rewrite A, B, C; lra|].
  split; vm_compute; reflexivity.
Qed.

(** * mid *)
Lemma s_of_int_2 : B2R (s_of_int 2) = 2 /\ fin (s_of_int 2).
Proof. split; [exact (float_of_value 2 ltac:(auto))|reflexivity]. Qed.
Lemma sdiv_value (x y : single) : is_finite x = true -> B2R y <> 0 -> Rabs (srnd (B2R x / B2R y)) < bpow radix2 128 ->
  B2R (sdiv x y) = srnd (B2R x / B2R y) /\ is_finite (sdiv x y) = true.
Proof.
  intros X Y H. pose proof (Bdiv_correct 24 128 single_prec single_emax mode_NE x y Y) as C.
  change (round_mode mode_NE) with ZnearestE in C. rewrite Rlt_bool_true in C by auto.
  destruct C as (C1 & C2 & _). rewrite X in C2. auto.
Qed.
(** Half of a positive single, rounded, is at most its predecessor. *)
Lemma s_half_lt (x : single) : is_finite x = true -> 0 < B2R x -> srnd (B2R x / 2) = 0 \/ exists g, generic_format radix2 sexp g /\ B2R x / 2 <= g < B2R x.
Proof.
  intros F P. destruct x as [| | |[] m e H]; try discriminate; cbn [B2R] in P; try lra.
  - exfalso. revert P. apply Rle_not_lt. apply F2R_le_0. simpl. lia.
  - destruct (Pos.eq_dec m 1) as [->|M].
    + left. assert (E : e = (-149)%Z).
      { pose proof H as H'. unfold SpecFloat.bounded in H'. apply andb_true_iff in H'. destruct H' as [H' _].
        unfold SpecFloat.canonical_mantissa in H'. apply Zeq_bool_eq in H'.
        cbn [SpecFloat.digits2_pos] in H'. unfold SpecFloat.fexp, SpecFloat.emin in H'. lia. }
      subst e. set (x := B754_finite false 1 (-149) H : single).
      assert (D : B2SF (sdiv x (s_of_int 2)) = SpecFloat.S754_zero false) by (vm_compute; reflexivity).
      destruct s_of_int_2 as [T1 T2].
      destruct (sdiv_value x (s_of_int 2)) as [V1 V2]; auto.
      * rewrite T1. lra.
      * rewrite T1. apply Rle_lt_trans with (Rabs (B2R x)); [|apply abs_B2R_lt_emax].
        assert (0 < B2R x) by (apply F2R_gt_0; simpl; lia).
        assert (srnd (B2R x / 2) <= B2R x) by (apply srnd_le; [apply sfmt_B|lra]).
        assert (0 <= srnd (B2R x / 2)) by (apply srnd_ge; [apply sfmt_0|lra]).
        rewrite !Rabs_pos_eq by lra. auto.
      * rewrite T1 in V1. rewrite <- SF2R_B2SF, D in V1. symmetry. exact V1.
    + right. exists (F2R (Float radix2 ((Z.pos m + 1) / 2) e)).
      assert (Hm : (2 <= Z.pos m)%Z) by lia.
      assert (Hd : ((Z.pos m + 1) / 2 < Z.pos m /\ Z.pos m <= 2 * ((Z.pos m + 1) / 2))%Z).
      { pose proof (Z.div_mod (Z.pos m + 1) 2). pose proof (Z.mod_pos_bound (Z.pos m + 1) 2). lia. }
      split; [|split].
      * change sexp with (FLT_exp (SpecFloat.emin 24 128) 24). apply generic_format_FLT.
        exists (Float radix2 ((Z.pos m + 1) / 2) e); [reflexivity| |]; cbn [Fnum Fexp].
        -- pose proof H as H'. unfold SpecFloat.bounded in H'. apply andb_true_iff in H'. destruct H' as [H' _].
           unfold SpecFloat.canonical_mantissa in H'. apply Zeq_bool_eq in H'.
           assert (B : (Z.pos m < 2 ^ 24)%Z).
           { pose proof (Zpos_digits2_pos m) as Dg. rewrite Dg in H'.
             assert ((Zdigits radix2 (Z.pos m) <= 24)%Z) by (unfold SpecFloat.fexp in H'; lia).
             pose proof (Zdigits_correct radix2 (Z.pos m)) as [_ Q]. rewrite Z.abs_eq in Q by lia.
             apply Z.lt_le_trans with (1 := Q). change (2 ^ 24)%Z with (Zpower radix2 24). apply Zpower_le. auto. }
           change (Zpower radix2 24) with (2 ^ 24)%Z. lia.
        -- pose proof H as H'. unfold SpecFloat.bounded in H'. apply andb_true_iff in H'. destruct H' as [H' _].
           unfold SpecFloat.canonical_mantissa in H'. apply Zeq_bool_eq in H'. unfold SpecFloat.fexp in H'. lia.
      * cbn [B2R SpecFloat.cond_Zopp]. unfold F2R. cbn [Fnum Fexp].
        assert (IZR (Z.pos m) <= 2 * IZR ((Z.pos m + 1) / 2)) by (rewrite <- mult_IZR; apply IZR_le; lia).
        pose proof (bpow_gt_0 radix2 e). nra.
      * cbn [B2R SpecFloat.cond_Zopp]. unfold F2R. cbn [Fnum Fexp]. apply Rmult_lt_compat_r; [apply bpow_gt_0|]. apply IZR_lt. lia.
Qed.
Lemma mid_single b (r : vrange single) : is_finite (vmin r) = true -> is_finite (vmax r) = true -> B2R (vmin r) <= B2R (vmax r) ->
  is_finite (ssub (vmax r) (vmin r)) = true ->
  exists m, vr_mid_float b r = Ok m /\ is_finite m = true /\ B2R (vmin r) <= B2R m <= B2R (vmax r).
Proof.
  intros A B L S. destruct r as [lo hi]. cbn [vmin vmax] in *. unfold vr_mid_float, vr_size_float. cbn [vmin vmax].
  assert (Na : not_nan 24 128 lo) by (unfold not_nan; destruct lo; easy).
  assert (Nb : not_nan 24 128 hi) by (unfold not_nan; destruct hi; easy).
  rewrite dassert_ok by (apply (le_iff _ _ _ (float_ordered 24 128)); auto; right; right; auto).
  cbn [obind noexcept]. eexists. split; [reflexivity|].
  pose proof (ssub_value hi lo S) as Sv. set (s := ssub hi lo) in *. set (d := B2R hi - B2R lo) in *.
  assert (D0 : 0 <= d) by (unfold d; lra).
  assert (S0 : 0 <= B2R s) by (rewrite Sv; apply srnd_ge; [apply sfmt_0|auto]).
  destruct s_of_int_2 as [T1 T2].
  assert (Q1 : 0 <= srnd (B2R s / 2) <= B2R s).
  { split; [apply srnd_ge; [apply sfmt_0|lra]|]. apply srnd_le; [apply sfmt_B|lra]. }
  destruct (sdiv_value s (s_of_int 2)) as [V1 V2]; auto.
  { rewrite T1. lra. }
  { rewrite T1. apply Rle_lt_trans with (Rabs (B2R s)); [|apply abs_B2R_lt_emax]. rewrite !Rabs_pos_eq by lra. lra. }
  rewrite T1 in V1.
  assert (Q2 : srnd (B2R s / 2) <= d).
  { destruct (Rle_dec (B2R s) d) as [H|H]; [lra|].
    destruct (s_half_lt s S) as [E|(g & G1 & G2)]; [lra|lra|].
    apply Rle_trans with g; [apply srnd_le; [auto|lra]|].
    destruct (Rle_dec g d) as [K|K]; auto. exfalso. assert (srnd d <= g) by (apply srnd_le; [auto|lra]). lra. }
  set (q := sdiv s (s_of_int 2)) in *.
  assert (M : B2R lo <= srnd (B2R hi - B2R q) <= B2R hi).
  { rewrite V1. split; [apply srnd_ge; [apply sfmt_B|unfold d in *; lra]|]. apply srnd_le; [apply sfmt_B|lra]. }
  pose proof (Bminus_correct 24 128 single_prec single_emax mode_NE hi q B V2) as C.
  change (round_mode mode_NE) with ZnearestE in C. rewrite Rlt_bool_true in C.
  - destruct C as (C1 & C2 & _). unfold ssub. rewrite C1. auto.
  - pose proof (abs_B2R_lt_emax 24 128 lo) as E1. pose proof (abs_B2R_lt_emax 24 128 hi) as E2.
    apply Rabs_lt. apply Rabs_lt_inv in E1. apply Rabs_lt_inv in E2. lra.
Qed.

