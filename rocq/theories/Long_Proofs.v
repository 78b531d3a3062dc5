From Coq Require Import Reals Psatz.
From Flocq Require Import Core IEEE754.BinarySingleNaN Plus_error Mult_error Relative.
From Verif Require Import Base BaseFacts Range_Model Range_Spec Range_Proofs IntRange_Proofs Float_Model Float_Spec Float_Proofs Interp_Proofs Frac_Proofs RangeEdge_Proofs Long_Model Long_Spec.
Local Open Scope R_scope.
#[local] Instance dv2 : Valid_exp dexp := fexp_correct 53 1024 double_prec.
#[local] Instance dm2 : Monotone_exp dexp := fexp_monotone 53 1024.

Section Wide.
Variables (prec emax : Z).
Context (Hp : Prec_gt_0 prec) (He : Prec_lt_emax prec emax).
Hypothesis HF : long_format prec emax.
Notation wide := (binary_float prec emax).
Notation wexp := (SpecFloat.fexp prec emax).
Notation wrnd := (to_long prec emax).
Notation wfmt := (generic_format radix2 wexp).
#[local] Instance wv1 : Valid_exp wexp := fexp_correct prec emax Hp.
#[local] Instance wm1 : Monotone_exp wexp := fexp_monotone prec emax.

Lemma wfmt_B (x : wide) : wfmt (B2R x).
Proof. apply generic_format_B2R. Qed.
Lemma wfmt_0 : wfmt 0.
Proof. apply generic_format_0. Qed.
Lemma wrnd_ge y x : wfmt y -> y <= x -> y <= wrnd x.
Proof. intros F L. rewrite <- (round_generic radix2 wexp ZnearestE y F). apply round_le; [typeclasses eauto..|auto]. Qed.
Lemma wrnd_le y x : wfmt y -> x <= y -> wrnd x <= y.
Proof. intros F L. rewrite <- (round_generic radix2 wexp ZnearestE y F). apply round_le; [typeclasses eauto..|auto]. Qed.
Lemma wrnd_mono x y : x <= y -> wrnd x <= wrnd y.
Proof. apply round_le; typeclasses eauto. Qed.
Lemma wrnd_id x : wfmt x -> wrnd x = x.
Proof. apply round_generic; typeclasses eauto. Qed.
Lemma d_wider x : generic_format radix2 dexp x -> wfmt x.
Proof. destruct HF. apply generic_inclusion_mag. intros _. unfold SpecFloat.fexp, SpecFloat.emin. lia. Qed.
Lemma bpow_emax : bpow radix2 1024 <= bpow radix2 emax.
Proof. destruct HF. apply bpow_le. lia. Qed.

Lemma d_widen_exact (x : double) : fin x -> fin (d_widen x : wide) /\ B2R (d_widen x : wide) = B2R x.
Proof.
  intros F. destruct x as [s| | |s m e H]; try discriminate; [auto|].
  set (x := B754_finite s m e H : double). cbn [d_widen].
  pose proof (binary_normalize_correct prec emax Hp He mode_NE (SpecFloat.cond_Zopp s (Z.pos m)) e s) as C. cbv zeta in C.
  change (F2R (Float radix2 (SpecFloat.cond_Zopp s (Z.pos m)) e)) with (B2R x) in C.
  change (round_mode mode_NE) with ZnearestE in C. rewrite (round_generic _ _ _ (B2R x)) in C by (apply d_wider, fmt_B).
  rewrite Rlt_bool_true in C.
  - destruct C as (C1 & C2 & _). auto.
  - apply Rlt_le_trans with (2 := bpow_emax). apply abs_B2R_lt_emax.
Qed.
Lemma dmax_value : B2R (flt_max : double) = dbl_max.
Proof. apply (max_value 53 1024). Qed.
Lemma d_gt_max (x : wide) : fin x -> c_gt Bcompare (Babs x) (d_widen flt_max) = true <-> dbl_max < Rabs (B2R x).
Proof.
  intros F. destruct (d_widen_exact flt_max (max_finite 53 1024 _ _)) as [W1 W2].
  unfold c_gt. rewrite (Bcompare_correct prec emax (Babs x) (d_widen flt_max)); [|now rewrite is_finite_Babs|auto]. rewrite B2R_Babs, W2, dmax_value.
  destruct (Rcompare_spec (Rabs (B2R x)) dbl_max); split; auto; try discriminate; lra.
Qed.
Lemma d_narrow_value (x : wide) : fin x -> Rabs (B2R x) <= dbl_max ->
  exists k, d_narrow x = Ok k /\ fin k /\ B2R k = rnd (B2R x).
Proof.
  intros F L. pose proof (d_gt_max x F) as G0. destruct x as [s| | |s m e H]; try discriminate.
  - exists (B754_zero s). repeat split. cbn. symmetry. apply round_0. typeclasses eauto.
  - set (x := B754_finite s m e H : wide) in *.
    assert (G : c_gt Bcompare (Babs x) (d_widen flt_max) = false).
    { apply Bool.not_true_is_false. intros K. apply G0 in K. lra. }
    assert (N : d_narrow x = if c_gt Bcompare (Babs x) (d_widen flt_max) then UB else Ok (binary_normalize 53 1024 _ _ mode_NE (SpecFloat.cond_Zopp s (Z.pos m)) e s)) by reflexivity.
    rewrite N, G. eexists. split; [reflexivity|].
    pose proof (binary_normalize_correct 53 1024 double_prec double_emax mode_NE (SpecFloat.cond_Zopp s (Z.pos m)) e s) as C. cbv zeta in C.
    change (F2R (Float radix2 (SpecFloat.cond_Zopp s (Z.pos m)) e)) with (B2R x) in C.
    change (round_mode mode_NE) with ZnearestE in C. rewrite <- dmax_value in L. rewrite Rlt_bool_true in C; [destruct C as (C1 & C2 & _); auto|].
    apply Rle_lt_trans with (B2R (flt_max : double)).
    + apply Rabs_le. apply Rabs_le_inv in L. split.
      * apply rnd_ge_fmt; [apply generic_format_opp, fmt_B|lra].
      * apply rnd_le_fmt; [apply fmt_B|lra].
    + apply (max_lt_emax 53 1024).
Qed.
Lemma bpow_ge_4 : 4 <= bpow radix2 1024.
Proof. replace 4 with (bpow radix2 2) by (simpl; lra). apply bpow_le. lia. Qed.
Lemma dbl_max_2 : 2 <= dbl_max.
Proof.
  unfold dbl_max. assert (2 * bpow radix2 971 <= bpow radix2 1024).
  { replace 2 with (bpow radix2 1) by (simpl; lra). rewrite <- bpow_plus. apply bpow_le. lia. }
  pose proof bpow_ge_4. lra.
Qed.
Lemma d_narrow_ub (x : wide) : fin x -> dbl_max < Rabs (B2R x) -> d_narrow x = UB.
Proof.
  intros F L. pose proof (d_gt_max x F) as G0. destruct x as [s| | |s m e H]; try discriminate.
  - exfalso. cbn in L. rewrite Rabs_R0 in L. pose proof dbl_max_2. lra.
  - apply G0 in L. unfold d_narrow. rewrite L. reflexivity.
Qed.
Lemma wover (x : wide) s : B2SF x = binary_overflow prec emax mode_NE s -> is_finite x = false.
Proof. unfold binary_overflow, overflow_to_inf. destruct x; try discriminate; auto. Qed.
Lemma wsub_finite (x y : wide) : is_finite (wsub x y) = true -> is_finite x = true /\ is_finite y = true.
Proof. destruct x as [|[]| |[]], y as [|[]| |[]]; try discriminate; auto. Qed.
Lemma wadd_finite (x y : wide) : is_finite (wadd x y) = true -> is_finite x = true /\ is_finite y = true.
Proof. destruct x as [|[]| |[]], y as [|[]| |[]]; try discriminate; auto. Qed.
Lemma wsub_value (x y : wide) : is_finite (wsub x y) = true -> B2R (wsub x y) = wrnd (B2R x - B2R y).
Proof.
  intros H. destruct (wsub_finite x y H) as [X Y]. pose proof (Bminus_correct prec emax Hp He mode_NE x y X Y) as C.
  destruct (Rlt_bool _ _); [apply C|]. destruct C as [C _]. fold (wsub x y) in C. apply wover in C. congruence.
Qed.
Lemma wadd_value (x y : wide) : is_finite (wadd x y) = true -> B2R (wadd x y) = wrnd (B2R x + B2R y).
Proof.
  intros H. destruct (wadd_finite x y H) as [X Y]. pose proof (Bplus_correct prec emax Hp He mode_NE x y X Y) as C.
  destruct (Rlt_bool _ _); [apply C|]. destruct C as [C _]. fold (wadd x y) in C. apply wover in C. congruence.
Qed.
Lemma wadd_value' (x y : wide) : fin x -> fin y -> Rabs (wrnd (B2R x + B2R y)) < bpow radix2 emax ->
  fin (wadd x y) /\ B2R (wadd x y) = wrnd (B2R x + B2R y).
Proof.
  intros X Y H. pose proof (Bplus_correct prec emax Hp He mode_NE x y X Y) as C.
  change (round_mode mode_NE) with ZnearestE in C. rewrite Rlt_bool_true in C by auto. destruct C as (C1 & C2 & _). auto.
Qed.
Lemma wmul_value (x y : wide) : is_finite x = true -> is_finite y = true -> Rabs (wrnd (B2R x * B2R y)) < bpow radix2 emax ->
  B2R (wmul x y) = wrnd (B2R x * B2R y) /\ is_finite (wmul x y) = true.
Proof.
  intros X Y H. pose proof (Bmult_correct prec emax Hp He mode_NE x y) as C.
  change (round_mode mode_NE) with ZnearestE in C. rewrite Rlt_bool_true in C by auto.
  destruct C as (C1 & C2 & _). rewrite X, Y in C2. auto.
Qed.
Lemma wdiv_value (x y : wide) : is_finite x = true -> B2R y <> 0 -> Rabs (wrnd (B2R x / B2R y)) < bpow radix2 emax ->
  B2R (wdiv x y) = wrnd (B2R x / B2R y) /\ is_finite (wdiv x y) = true.
Proof.
  intros X Y H. pose proof (Bdiv_correct prec emax Hp He mode_NE x y Y) as C.
  change (round_mode mode_NE) with ZnearestE in C. rewrite Rlt_bool_true in C by auto.
  destruct C as (C1 & C2 & _). rewrite X in C2. auto.
Qed.
Lemma wsub_0 (x y : wide) : B2R y < B2R x -> 0 < wrnd (B2R x - B2R y).
Proof.
  intros L. assert (0 <= wrnd (B2R x - B2R y)) by (apply wrnd_ge; [apply wfmt_0|lra]).
  assert (wrnd (B2R x - B2R y) <> 0); [unfold Rminus|lra].
  apply (round_plus_neq_0 radix2 wexp ZnearestE); [apply wfmt_B|apply generic_format_opp, wfmt_B|lra].
Qed.
Lemma wsub_within (u mn mx : wide) : fin u -> fin mn -> fin (wsub mx mn) -> B2R mn <= B2R u -> B2R u <= B2R mx ->
  fin (wsub u mn) /\ B2R (wsub u mn) = wrnd (B2R u - B2R mn) /\ 0 <= B2R (wsub u mn) <= B2R (wsub mx mn).
Proof.
  intros U M D L H.
  pose proof (wsub_value mx mn D) as V. pose proof (abs_B2R_lt_emax prec emax (wsub mx mn)) as E.
  assert (0 <= wrnd (B2R u - B2R mn)) by (apply wrnd_ge; [apply wfmt_0|lra]).
  assert (wrnd (B2R u - B2R mn) <= B2R (wsub mx mn)) by (rewrite V; apply wrnd_mono; lra).
  pose proof (Bminus_correct prec emax Hp He mode_NE u mn U M) as C.
  change (round_mode mode_NE) with ZnearestE in C. rewrite Rlt_bool_true in C.
  - destruct C as (C1 & C2 & _). change (Bminus mode_NE u mn) with (wsub u mn) in C1, C2. rewrite C1. auto.
  - rewrite Rabs_pos_eq by auto. apply Rle_lt_trans with (2 := E). apply Rle_trans with (1 := H1). apply Rle_abs.
Qed.

(** * fraction *)
Lemma rnd_twice x : 0 <= x -> 0 <= rnd x <= 2 * x.
Proof.
  intros P. split; [apply rnd_ge_fmt; [apply fmt_0|auto]|].
  destruct (round_N_pt radix2 dexp (fun z => negb (Z.even z)) x) as [_ N].
  specialize (N 0 (generic_format_0 _ _)). rewrite Rminus_0_l, Rabs_Ropp, (Rabs_pos_eq x P) in N.
  apply Rabs_le_inv in N. lra.
Qed.
Lemma wfmt_2 : wfmt 2.
Proof. apply d_wider. change 2 with (IZR 2). apply fmt_int. simpl. lia. Qed.
Lemma quot_le a b c : 0 < b -> a <= c * b -> a / b <= c.
Proof. intros B L. apply Rmult_le_reg_r with b; auto. unfold Rdiv. rewrite Rmult_assoc, Rinv_l by lra. lra. Qed.
Lemma quot_ge a b : 0 < b -> 0 <= a -> 0 <= a / b.
Proof. intros B L. apply Rmult_le_pos; [auto|left; now apply Rinv_0_lt_compat]. Qed.

Lemma l_fraction_value (v mn mx : wide) : fin v -> fin mn -> fin (wsub mx mn) -> B2R mn < B2R mx -> B2R mn <= B2R v <= B2R mx ->
  wrnd (B2R v - B2R mn) <= dbl_max ->
  exists r, l_fraction v mn mx = Ok r /\ fin r /\
    B2R r = rnd (wrnd (rnd (wrnd (B2R v - B2R mn)) / wrnd (B2R mx - B2R mn))) /\ 0 <= B2R r <= 2.
Proof.
  intros V M D L [A B] U. destruct (wsub_finite _ _ D) as [X _].
  destruct (wsub_within v mn mx V M D A B) as (F & E & G).
  pose proof (wsub_value mx mn D) as W. assert (P : 0 < B2R (wsub mx mn)) by (rewrite W; now apply wsub_0).
  assert (K : l_fraction v mn mx = let! a := d_narrow (wsub v mn) in d_narrow (wdiv (d_widen a) (wsub mx mn))).
  { unfold l_fraction, c_eq. rewrite (Bcompare_correct prec emax mx mn X M). rewrite Rcompare_Gt by auto. reflexivity. }
  destruct (d_narrow_value (wsub v mn) F) as (a & A1 & A2 & A3); [rewrite E in *; rewrite Rabs_pos_eq; lra|].
  rewrite K, A1. cbn [obind].
  destruct (d_widen_exact a A2) as [W1 W2].
  pose proof (rnd_twice _ (proj1 G)) as T. rewrite <- A3 in T.
  assert (Q : 0 <= B2R a / B2R (wsub mx mn) <= 2).
  { split; [apply quot_ge; lra|apply quot_le; [lra|]; nra]. }
  assert (Q' : 0 <= wrnd (B2R a / B2R (wsub mx mn)) <= 2).
  { split; [apply wrnd_ge; [apply wfmt_0|lra]|apply wrnd_le; [apply wfmt_2|lra]]. }
  destruct (wdiv_value (d_widen a) (wsub mx mn) W1) as [C1 C2]; rewrite ?W2; [lra| |].
  { rewrite Rabs_pos_eq by lra. pose proof bpow_emax. pose proof bpow_ge_4. lra. }
  rewrite W2 in C1. destruct (d_narrow_value _ C2) as (r & R1 & R2 & R3).
  { rewrite C1, Rabs_pos_eq by lra. pose proof dbl_max_2. lra. }
  exists r. split; [exact R1|]. split; [exact R2|]. rewrite R3, C1.
  split; [rewrite A3, E, W; reflexivity|]. split; [apply rnd_ge_fmt; [apply fmt_0|lra]|].
  apply rnd_le_fmt; [change 2 with (IZR 2); apply fmt_int; simpl; lia|lra].
Qed.
Lemma l_fraction_ub (v mn mx : wide) : fin v -> fin mn -> fin (wsub mx mn) -> B2R mn < B2R mx -> B2R mn <= B2R v <= B2R mx ->
  dbl_max < wrnd (B2R v - B2R mn) -> l_fraction v mn mx = UB.
Proof.
  intros V M D L [A B] U. destruct (wsub_finite _ _ D) as [X _].
  destruct (wsub_within v mn mx V M D A B) as (F & E & G).
  unfold l_fraction, c_eq. rewrite (Bcompare_correct prec emax mx mn X M). rewrite Rcompare_Gt by auto.
  rewrite d_narrow_ub; auto. rewrite Rabs_pos_eq by lra. lra.
Qed.
Lemma one_and_ulp : rnd (1 + bpow radix2 (-53)) = 1.
Proof.
  set (x := binary_normalize 53 1024 double_prec double_emax mode_NE (2 ^ 53 + 1) (-53) false).
  assert (S : B2SF x = SpecFloat.S754_finite false 4503599627370496 (-52)) by (vm_compute; reflexivity).
  assert (V : B2R x = 1) by (rewrite <- SF2R_B2SF, S; unfold SF2R, F2R; simpl; lra).
  pose proof (binary_normalize_correct 53 1024 double_prec double_emax mode_NE (2 ^ 53 + 1) (-53) false) as C. cbv zeta in C. fold x in C.
  assert (F : F2R (Float radix2 (2 ^ 53 + 1) (-53)) = 1 + bpow radix2 (-53)).
  { unfold F2R. cbn [Fnum Fexp]. rewrite plus_IZR, two53. rewrite Rmult_plus_distr_r, <- bpow_plus. simpl. lra. }
  rewrite F in C. change (round_mode mode_NE) with ZnearestE in C. rewrite Rlt_bool_true in C.
  - destruct C as (C & _). rewrite <- C. exact V.
  - pose proof (rnd_twice (1 + bpow radix2 (-53))) as T. pose proof (bpow_gt_0 radix2 (-53)).
    assert (bpow radix2 (-53) < 1) by (change 1 with (bpow radix2 0); apply bpow_lt; lia).
    rewrite Rabs_pos_eq by (apply T; lra). apply Rle_lt_trans with (2 * (1 + bpow radix2 (-53))); [apply T; lra|].
    apply Rlt_le_trans with 4; [lra|apply bpow_ge_4].
Qed.
Lemma l_fraction_unit (v mn mx : wide) (r : double) : (53 < prec)%Z -> fin v -> fin mn -> fin (wsub mx mn) -> B2R mn < B2R mx -> B2R mn <= B2R v <= B2R mx ->
  bpow radix2 (-1022) <= wrnd (B2R mx - B2R mn) <= dbl_max -> l_fraction v mn mx = Ok r -> B2R r <= 1.
Proof.
  intros PR V M D L B [U1 U2] E. destruct HF as [HF1 HF2].
  assert (Mn : wrnd (B2R v - B2R mn) <= wrnd (B2R mx - B2R mn)) by (apply wrnd_mono; lra).
  destruct (l_fraction_value v mn mx) as (r' & R1 & R2 & R3 & _); auto; [lra|]. rewrite E in R1. injection R1 as <-.
  rewrite R3. set (w := wrnd (B2R mx - B2R mn)) in *. set (d := wrnd (B2R v - B2R mn)) in *.
  assert (W0 : 0 < w) by (apply Rlt_le_trans with (2 := U1); apply bpow_gt_0).
  assert (R0 : rnd d <= (1 + bpow radix2 (-53)) * w).
  { apply Rle_trans with (rnd w); [apply rnd_le; auto|].
    pose proof (relative_error_N_FLT radix2 (SpecFloat.emin 53 1024) 53 ltac:(reflexivity) (fun z => negb (Z.even z)) w) as Q.
    rewrite Rabs_pos_eq in Q by lra. specialize (Q U1). change (FLT_exp (SpecFloat.emin 53 1024) 53) with dexp in Q.
    change (Znearest (fun z => negb (Z.even z))) with ZnearestE in Q.
    apply Rabs_le_inv in Q. assert (/ 2 * bpow radix2 (- (53) + 1) = bpow radix2 (-53)).
    { replace (/ 2) with (bpow radix2 (-1)) by (simpl; lra). rewrite <- bpow_plus. f_equal. }
    rewrite H in Q. lra. }
  rewrite <- one_and_ulp. apply rnd_le. apply wrnd_le; [|now apply quot_le].
  apply generic_format_FLT. exists (Float radix2 (2 ^ 53 + 1) (-53)); cbn [Fnum Fexp].
  - unfold F2R. cbn [Fnum Fexp]. rewrite plus_IZR, two53. rewrite Rmult_plus_distr_r, <- bpow_plus. simpl. lra.
  - apply Z.lt_le_trans with (Zpower radix2 54); [reflexivity|]. apply Zpower_le. lia.
  - unfold SpecFloat.emin. lia.
Qed.
Lemma fraction_long (mn mx : wide) : fin mn -> fin (wsub mx mn) -> B2R mn < B2R mx ->
  (exists r, l_fraction mn mn mx = Ok r /\ fin r /\ B2R r = 0) /\
  (forall u v : wide, fin u -> fin v -> B2R mn <= B2R u -> B2R u <= B2R v -> B2R v <= B2R mx -> wrnd (B2R v - B2R mn) <= dbl_max ->
     exists r s, l_fraction u mn mx = Ok r /\ l_fraction v mn mx = Ok s /\ fin r /\ fin s /\ 0 <= B2R r <= B2R s).
Proof.
  intros M D L. destruct (wsub_finite _ _ D) as [X _].
  assert (P : 0 < wrnd (B2R mx - B2R mn)) by now apply wsub_0.
  split.
  - assert (Z : wrnd (B2R mn - B2R mn) = 0) by (replace (B2R mn - B2R mn) with 0 by lra; apply wrnd_id, wfmt_0).
    destruct (l_fraction_value mn mn mx) as (r & E & F & G & _); auto; [lra|rewrite Z; pose proof dbl_max_2; lra|].
    exists r. split; [auto|]. split; [auto|]. rewrite G, Z, round_0 by typeclasses eauto.
    unfold Rdiv. rewrite Rmult_0_l, (round_0 radix2 wexp) by typeclasses eauto. apply round_0. typeclasses eauto.
  - intros u v U V A B C H. assert (wrnd (B2R u - B2R mn) <= wrnd (B2R v - B2R mn)) by (apply wrnd_mono; lra).
    destruct (l_fraction_value u mn mx) as (r & E & F & G & I); auto; [lra|lra|].
    destruct (l_fraction_value v mn mx) as (s & E' & F' & G' & I'); auto; [lra|].
    exists r, s. repeat split; auto; [lra|]. rewrite G, G'. apply rnd_le. apply wrnd_mono.
    apply Rmult_le_compat_r; [left; now apply Rinv_0_lt_compat|]. apply rnd_le. auto.
Qed.
Lemma fraction_empty_long (v mn mx : wide) : fin mn -> fin mx -> B2R mn = B2R mx -> l_fraction v mn mx = Ok B754_nan.
Proof.
  intros A B E. unfold l_fraction, c_eq. rewrite (Bcompare_correct prec emax mx mn B A). rewrite Rcompare_Eq by auto. reflexivity.
Qed.

(** * interpolate *)
Lemma l_step (f : double) (w : wide) : fin f -> fin w -> 0 <= B2R f <= 1 -> 0 <= B2R w ->
  fin (wmul (d_widen f) w) /\ B2R (wmul (d_widen f) w) = wrnd (B2R f * B2R w) /\ 0 <= B2R (wmul (d_widen f) w) <= B2R w.
Proof.
  intros F W L P. destruct (d_widen_exact f F) as [W1 W2].
  assert (A : 0 <= B2R f * B2R w <= B2R w) by nra.
  assert (B : 0 <= wrnd (B2R f * B2R w) <= B2R w).
  { split; [apply wrnd_ge; [apply wfmt_0|lra]|apply wrnd_le; [apply wfmt_B|lra]]. }
  destruct (wmul_value (d_widen f) w W1 W) as [M1 M2]; rewrite W2 in *.
  - rewrite Rabs_pos_eq by lra. apply Rle_lt_trans with (B2R w); [lra|].
    apply Rle_lt_trans with (2 := abs_B2R_lt_emax prec emax w). apply Rle_abs.
  - rewrite M1. auto.
Qed.
Lemma interpolate_long (mn mx : wide) : fin mn -> fin (wsub mx mn) -> B2R mn <= B2R mx ->
  (forall f : double, fin f -> 0 <= B2R f <= 1 -> let r := l_interpolate f mn mx in
     (fin r -> B2R r = wrnd (B2R mn + wrnd (B2R f * wrnd (B2R mx - B2R mn))) /\ B2R mn <= B2R r) /\
     (B2R f = 0 -> fin r /\ B2R r = B2R mn) /\
     (exact_width_of mn mx -> fin r /\ B2R mn <= B2R r <= B2R mx /\ (B2R f = 1 -> B2R r = B2R mx))) /\
  (forall f g, fin f -> fin g -> 0 <= B2R f -> B2R f <= B2R g -> B2R g <= 1 ->
     fin (l_interpolate f mn mx) -> fin (l_interpolate g mn mx) -> B2R (l_interpolate f mn mx) <= B2R (l_interpolate g mn mx)).
Proof.
  intros M D L. destruct (wsub_finite _ _ D) as [X _]. pose proof (wsub_value mx mn D) as V.
  assert (P : 0 <= B2R (wsub mx mn)) by (rewrite V; apply wrnd_ge; [apply wfmt_0|lra]).
  split.
  - intros f F H r. unfold r, l_interpolate. clear r. destruct (l_step f (wsub mx mn) F D H P) as (K2 & K3 & K4).
    set (k := wmul (d_widen f) (wsub mx mn)) in *. rewrite V in K3. split; [|split].
    + intros R. rewrite (wadd_value mn k R), K3. split; [reflexivity|]. rewrite <- K3. apply wrnd_ge; [apply wfmt_B|lra].
    + intros Z. assert (K0 : B2R k = 0) by (rewrite K3, Z, Rmult_0_l; apply wrnd_id, wfmt_0).
      destruct (wadd_value' mn k M K2) as [A1 A2].
      * rewrite K0, Rplus_0_r, wrnd_id by apply wfmt_B. apply abs_B2R_lt_emax.
      * split; [exact A1|]. rewrite A2, K0, Rplus_0_r. apply wrnd_id, wfmt_B.
    + intros (w & W). assert (E : wrnd (B2R mx - B2R mn) = B2R mx - B2R mn) by (rewrite <- W; apply wrnd_id, wfmt_B).
      rewrite E in V. rewrite V in K4.
      assert (B : B2R mn <= wrnd (B2R mn + B2R k) <= B2R mx).
      { split; [apply wrnd_ge; [apply wfmt_B|lra]|apply wrnd_le; [apply wfmt_B|lra]]. }
      destruct (wadd_value' mn k M K2) as [A1 A2].
      { pose proof (abs_B2R_lt_emax prec emax mn) as Q1. pose proof (abs_B2R_lt_emax prec emax mx) as Q2.
        apply Rabs_lt. apply Rabs_lt_inv in Q1. apply Rabs_lt_inv in Q2. lra. }
      rewrite A2. repeat split; try apply B; [exact A1|]. intros O.
      rewrite K3, O, Rmult_1_l, E, <- W. rewrite (wrnd_id (B2R w)) by apply wfmt_B.
      rewrite W. replace (B2R mn + (B2R mx - B2R mn)) with (B2R mx) by lra. apply wrnd_id, wfmt_B.
  - intros f g F G A B C R S.
    destruct (l_step f (wsub mx mn) F D ltac:(lra) P) as (K2 & K3 & K4). destruct (l_step g (wsub mx mn) G D ltac:(lra) P) as (J2 & J3 & J4).
    unfold l_interpolate in *. rewrite (wadd_value _ _ R), (wadd_value _ _ S). apply wrnd_mono. apply Rplus_le_compat_l. rewrite K3, J3.
    apply wrnd_mono. apply Rmult_le_compat_r; auto.
Qed.
Lemma range_members_long (r : vrange wide) (f v : wide) : fin f -> 0 <= B2R f <= 1 ->
  (exists g : double, fin g /\ B2R g = rnd (B2R f) /\ 0 <= B2R g <= 1 /\ vr_interpolate_long r f = Ok (l_interpolate g (vmin r) (vmax r))) /\
  vr_fraction_long r v = l_fraction v (vmin r) (vmax r).
Proof.
  intros F L. destruct (d_narrow_value f F) as (g & G1 & G2 & G3); [rewrite Rabs_pos_eq by lra; pose proof dbl_max_2; lra|].
  split; [|reflexivity]. exists g. unfold vr_interpolate_long. rewrite G1. repeat split; auto; rewrite G3.
  - apply rnd_ge_fmt; [apply fmt_0|lra].
  - apply rnd_le_fmt; [apply fmt_1|lra].
Qed.

(** * mid *)
Lemma w_of_int_2 : B2R (w_of_int 2 : wide) = 2 /\ fin (w_of_int 2 : wide).
Proof.
  pose proof (binary_normalize_correct prec emax Hp He mode_NE 2 0 false) as C. cbv zeta in C.
  assert (E : F2R (Float radix2 2 0) = 2) by (unfold F2R; simpl; ring). rewrite E in C.
  change (round_mode mode_NE) with ZnearestE in C. rewrite wrnd_id in C by apply wfmt_2. rewrite Rlt_bool_true in C.
  - destruct C as (C1 & C2 & _). auto.
  - rewrite Rabs_pos_eq by lra. pose proof bpow_emax. pose proof bpow_ge_4. lra.
Qed.
Lemma mid_long b (r : vrange wide) : is_finite (vmin r) = true -> is_finite (vmax r) = true -> B2R (vmin r) <= B2R (vmax r) ->
  is_finite (wsub (vmax r) (vmin r)) = true ->
  exists m, vr_mid_long b r = Ok m /\ is_finite m = true /\ B2R (vmin r) <= B2R m <= B2R (vmax r).
Proof.
  intros A B L S. destruct r as [lo hi]. cbn [vmin vmax] in *. unfold vr_mid_long, vr_size_long. cbn [vmin vmax].
  assert (Na : not_nan prec emax lo) by (unfold not_nan; destruct lo; easy).
  assert (Nb : not_nan prec emax hi) by (unfold not_nan; destruct hi; easy).
  rewrite dassert_ok by (apply (le_iff _ _ _ (float_ordered prec emax)); auto; right; right; auto).
  cbn [obind noexcept]. eexists. split; [reflexivity|].
  pose proof (wsub_value hi lo S) as Sv. set (s := wsub hi lo) in *. set (d := B2R hi - B2R lo) in *.
  assert (D0 : 0 <= d) by (unfold d; lra).
  assert (S0 : 0 <= B2R s) by (rewrite Sv; apply wrnd_ge; [apply wfmt_0|auto]).
  destruct w_of_int_2 as [T1 T2].
  assert (Q1 : 0 <= wrnd (B2R s / 2) <= B2R s).
  { split; [apply wrnd_ge; [apply wfmt_0|lra]|]. apply wrnd_le; [apply wfmt_B|lra]. }
  destruct (wdiv_value s (w_of_int 2)) as [V1 V2]; auto.
  { rewrite T1. lra. }
  { rewrite T1. apply Rle_lt_trans with (Rabs (B2R s)); [|apply abs_B2R_lt_emax]. rewrite !Rabs_pos_eq by lra. lra. }
  rewrite T1 in V1.
  assert (Q2 : wrnd (B2R s / 2) <= d).
  { destruct (Rle_dec (B2R s) d) as [H|H]; [lra|]. apply Rnot_le_lt in H.
    assert (BG : bpow radix2 (prec + SpecFloat.emin prec emax) < d).
    { destruct (Rlt_dec (bpow radix2 (prec + SpecFloat.emin prec emax)) d) as [K|K]; auto. exfalso. apply Rnot_lt_le in K.
      assert (wfmt d).
      { unfold d, Rminus. apply (FLT_format_plus_small radix2 (SpecFloat.emin prec emax) prec); [apply wfmt_B|apply generic_format_opp, wfmt_B|].
        fold (B2R hi - B2R lo). fold d. rewrite Rabs_pos_eq by auto. exact K. }
      rewrite (wrnd_id d) in Sv by auto. lra. }
    assert (G : wfmt (B2R s / 2)).
    { replace (B2R s / 2) with (B2R s * bpow radix2 (-1)) by (simpl; lra).
      apply (mult_bpow_exact_FLT radix2 (SpecFloat.emin prec emax) prec); [apply wfmt_B|].
      assert (prec + SpecFloat.emin prec emax + 1 <= mag radix2 (B2R s))%Z; [|lia].
      apply mag_ge_bpow. rewrite Rabs_pos_eq by auto. replace (prec + SpecFloat.emin prec emax + 1 - 1)%Z with (prec + SpecFloat.emin prec emax)%Z by lia. lra. }
    rewrite wrnd_id by auto. destruct (Rle_dec (B2R s / 2) d) as [K|K]; auto. exfalso.
    assert (wrnd d <= B2R s / 2) by (apply wrnd_le; [auto|lra]).
    pose proof (bpow_gt_0 radix2 (prec + SpecFloat.emin prec emax)). lra. }
  set (q := wdiv s (w_of_int 2)) in *.
  assert (M : B2R lo <= wrnd (B2R hi - B2R q) <= B2R hi).
  { rewrite V1. split; [apply wrnd_ge; [apply wfmt_B|unfold d in *; lra]|]. apply wrnd_le; [apply wfmt_B|lra]. }
  pose proof (Bminus_correct prec emax Hp He mode_NE hi q B V2) as C.
  change (round_mode mode_NE) with ZnearestE in C. rewrite Rlt_bool_true in C.
  - destruct C as (C1 & C2 & _). unfold wsub. rewrite C1. auto.
  - pose proof (abs_B2R_lt_emax prec emax lo) as E1. pose proof (abs_B2R_lt_emax prec emax hi) as E2.
    apply Rabs_lt. apply Rabs_lt_inv in E1. apply Rabs_lt_inv in E2. lra.
Qed.
Lemma mid_overflow_long b (r : vrange wide) : fin (vmin r) -> fin (vmax r) -> B2R (vmin r) <= B2R (vmax r) ->
  is_finite (wsub (vmax r) (vmin r)) = false -> vr_mid_long b r = Ok (B754_infinity true).
Proof.
  intros A B L F. unfold vr_mid_long, vr_size_long.
  rewrite dassert_ok by (apply (le_iff _ _ _ (float_ordered prec emax)); [apply fin_nan; auto|apply fin_nan; auto|]; right; right; auto).
  cbn [obind noexcept]. unfold wsub at 2. rewrite wide_sub by auto.
  assert (T : wdiv (B754_infinity false) (w_of_int 2) = (B754_infinity false : wide)).
  { destruct w_of_int_2 as [T1 T2]. destruct (w_of_int 2 : wide) as [| | |[] m e H]; try discriminate; [cbn in T1; lra| |reflexivity].
    exfalso. assert (B2R (B754_finite true m e H : wide) <= 0) by (apply F2R_le_0; cbn; lia). lra. }
  rewrite T. destruct (vmax r); try discriminate; reflexivity.
Qed.
End Wide.

(** * x87 *)
Lemma x87_format : long_format 64 16384.
Proof. split; lia. Qed.
Lemma fraction_long_refuted : exists mx tiny huge : x87, mx = x87_of (2 ^ 53 + 1) (-53) /\ tiny = x87_of 3 (-1076) /\ huge = x87_of 1 1025 /\
  omap B2SF (l_fraction mx (x87_of 0 0) mx) = Ok (SpecFloat.S754_finite false (2 ^ 53 - 1) (-53)) /\
  omap B2SF (l_fraction tiny (x87_of 0 0) tiny) = Ok (SpecFloat.S754_finite false 6004799503160661 (-52)) /\
  l_fraction huge (x87_of 0 0) huge = UB.
Proof. exists (x87_of (2 ^ 53 + 1) (-53)), (x87_of 3 (-1076)), (x87_of 1 1025). repeat split; vm_compute; reflexivity. Qed.
Lemma interpolate_long_refuted : exists one : double, one = of_int 1 /\
  B2SF (l_interpolate one (x87_of (-1) 0) (x87_of 3 (-65))) = B2SF (x87_of 1 (-63)) /\
  Bcompare (x87_of 1 (-63)) (x87_of 3 (-65)) = Some Gt /\
  omap B2SF (vr_interpolate_long (VR (x87_of 0 0) (x87_of 1 0)) (x87_of (2 ^ 60 + 1) (-61))) = Ok (B2SF (x87_of 1 (-1))).
Proof. exists (of_int 1). repeat split; vm_compute; reflexivity. Qed.
Lemma x87_of_value m e : (1 <= m <= 3)%Z -> (-2 <= e <= 2)%Z -> B2R (x87_of m e) = IZR m * bpow radix2 e /\ fin (x87_of m e).
Proof.
  intros M E. pose proof (binary_normalize_correct 64 16384 x87_prec x87_emax mode_NE m e false) as C. cbv zeta in C.
  change (F2R (Float radix2 m e)) with (IZR m * bpow radix2 e) in C. change (round_mode mode_NE) with ZnearestE in C.
  assert (G : generic_format radix2 (SpecFloat.fexp 64 16384) (IZR m * bpow radix2 e)).
  { apply (d_wider 64 16384 x87_format). apply fmt_scaled; lia. }
  rewrite round_generic in C by (typeclasses eauto || auto).
  assert (IZR m <= bpow radix2 2) by (simpl; apply IZR_le; lia). assert (0 <= IZR m) by (apply IZR_le; lia).
  pose proof (bpow_gt_0 radix2 e) as Pe. assert (bpow radix2 e <= bpow radix2 2) by (apply bpow_le; lia).
  rewrite Rlt_bool_true in C; [destruct C as (C1 & C2 & _); auto|].
  rewrite Rabs_pos_eq by nra. apply Rle_lt_trans with (bpow radix2 2 * bpow radix2 2); [nra|].
  rewrite <- bpow_plus. apply bpow_lt. lia.
Qed.
Lemma long_example : exists mn mx v : x87, mn = x87_of 1 0 /\ mx = x87_of 3 0 /\ v = x87_of 3 (-1) /\
  long_format 64 16384 /\ fin mn /\ fin v /\ fin (wsub mx mn) /\ B2R mn < B2R v < B2R mx /\ exact_width_of mn mx /\
  to_long 64 16384 (B2R mx - B2R mn) = 2 /\
  B2SF (l_interpolate (ddiv (of_int 1) (of_int 4)) mn mx) = B2SF v /\
  omap B2SF (l_fraction v mn mx) = Ok (B2SF (ddiv (of_int 1) (of_int 4))).
Proof.
  exists (x87_of 1 0), (x87_of 3 0), (x87_of 3 (-1)).
  destruct (x87_of_value 1 0 ltac:(lia) ltac:(lia)) as [A1 A2]. destruct (x87_of_value 3 0 ltac:(lia) ltac:(lia)) as [B1 B2].
  destruct (x87_of_value 3 (-1) ltac:(lia) ltac:(lia)) as [C1 C2]. destruct (x87_of_value 2 0 ltac:(lia) ltac:(lia)) as [D1 D2].
  split; [reflexivity|]. split; [reflexivity|]. split; [reflexivity|]. split; [exact x87_format|]. split; [auto|]. split; [auto|].
  split; [vm_compute; reflexivity|]. rewrite A1, B1, C1. split; [simpl; lra|].
  split; [exists (x87_of 2 0); rewrite A1, B1, D1; simpl; lra|].
  split; [replace (3 * bpow radix2 0 - 1 * bpow radix2 0) with 2 by (simpl; lra); apply (wrnd_id 64 16384), (wfmt_2 64 16384), x87_format|].
  split; vm_compute; reflexivity.
Qed.
