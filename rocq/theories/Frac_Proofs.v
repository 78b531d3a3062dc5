From Coq Require Import Reals Psatz.
From Flocq Require Import Core IEEE754.BinarySingleNaN Plus_error.
From Verif Require Import Base BaseFacts Range_Model Range_Spec Range_Proofs IntRange_Proofs Float_Model Float_Spec Float_Proofs Interp_Proofs.
Local Open Scope R_scope.
#[local] Instance dve'' : Valid_exp dexp := fexp_correct 53 1024 double_prec.
#[local] Instance dmono'' : Monotone_exp dexp := fexp_monotone 53 1024.

Lemma rnd_sub_0 (x y : double) : B2R y < B2R x -> 0 < rnd (B2R x - B2R y).
Proof.
  intros L. assert (0 <= rnd (B2R x - B2R y)) by (apply rnd_ge_fmt; [apply fmt_0|lra]).
  assert (rnd (B2R x - B2R y) <> 0); [unfold Rminus|lra].
  apply (round_plus_neq_0 radix2 dexp ZnearestE); [apply fmt_B|apply generic_format_opp, fmt_B|lra].
Qed.
Lemma dsub_within (u v mn mx : double) : fin u -> fin mn -> fin (dsub mx mn) -> B2R mn <= B2R u -> B2R u <= B2R mx ->
  fin (dsub u mn) /\ B2R (dsub u mn) = rnd (B2R u - B2R mn) /\ 0 <= B2R (dsub u mn) <= B2R (dsub mx mn).
Proof.
  intros U M D L H.
  pose proof (dsub_value mx mn D) as V. pose proof (abs_B2R_lt_emax 53 1024 (dsub mx mn)) as E.
  assert (0 <= rnd (B2R u - B2R mn)) by (apply rnd_ge_fmt; [apply fmt_0|lra]).
  assert (rnd (B2R u - B2R mn) <= B2R (dsub mx mn)) by (rewrite V; apply round_le; [typeclasses eauto..|lra]).
  pose proof (Bminus_correct 53 1024 double_prec double_emax mode_NE u mn U M) as C.
  change (round_mode mode_NE) with ZnearestE in C. rewrite Rlt_bool_true in C.
  - destruct C as (C1 & C2 & _). change (Bminus mode_NE u mn) with (dsub u mn) in C1, C2. rewrite C1. auto.
  - rewrite Rabs_pos_eq by auto. apply Rle_lt_trans with (2 := E). apply Rle_trans with (1 := H1). apply Rle_abs.
Qed.
Lemma fmt_1 : generic_format radix2 dexp 1.
Proof. rewrite <- (proj1 (of_int_exact 1 ltac:(lia))). apply fmt_B. Qed.
Lemma div_unit a d : 0 <= a <= d -> 0 < d -> 0 <= a / d <= 1.
Proof.
  intros A D. split; [apply Rmult_le_pos; [lra|left; now apply Rinv_0_lt_compat]|].
  apply Rmult_le_reg_r with d; [auto|]. unfold Rdiv. rewrite Rmult_assoc, Rinv_l; lra.
Qed.
Lemma d_fraction_value (v mn mx : double) : fin v -> fin mn -> fin (dsub mx mn) -> B2R mn < B2R mx -> B2R mn <= B2R v <= B2R mx ->
  fin (d_fraction v mn mx) /\ B2R (d_fraction v mn mx) = rnd (rnd (B2R v - B2R mn) / rnd (B2R mx - B2R mn)) /\
  0 <= B2R (d_fraction v mn mx) <= 1.
Proof.
  intros V M D L [A B]. destruct (dsub_finite _ _ D) as [X _].
  destruct (dsub_within v v mn mx V M D A B) as (F & E & G).
  pose proof (dsub_value mx mn D) as W. assert (P : 0 < B2R (dsub mx mn)) by (rewrite W; now apply rnd_sub_0).
  pose proof (div_unit _ _ G P) as [Q1 Q2].
  assert (0 <= rnd (B2R (dsub v mn) / B2R (dsub mx mn)) <= 1).
  { split; [apply rnd_ge_fmt; [apply fmt_0|auto]|apply rnd_le_fmt; [apply fmt_1|auto]]. }
  assert (K : d_fraction v mn mx = ddiv (dsub v mn) (dsub mx mn)).
  { unfold d_fraction, c_eq. rewrite (Bcompare_correct 53 1024 mx mn X M). rewrite Rcompare_Gt by auto. reflexivity. }
  rewrite K. destruct (ddiv_value (dsub v mn) (dsub mx mn) F) as [C1 C2]; [lra| |].
  - rewrite Rabs_pos_eq by lra. apply Rle_lt_trans with 1; [lra|]. change 1 with (bpow radix2 0). apply bpow_lt. lia.
  - rewrite C1. split; [auto|]. split; [now rewrite E, W|auto].
Qed.
Lemma fraction_double (mn mx : double) : fin mn -> fin (dsub mx mn) -> B2R mn < B2R mx ->
  (fin (d_fraction mn mn mx) /\ B2R (d_fraction mn mn mx) = 0) /\
  (fin (d_fraction mx mn mx) /\ B2R (d_fraction mx mn mx) = 1) /\
  (forall u v : double, fin u -> fin v -> B2R mn <= B2R u -> B2R u <= B2R v -> B2R v <= B2R mx ->
     fin (d_fraction u mn mx) /\ fin (d_fraction v mn mx) /\
     0 <= B2R (d_fraction u mn mx) <= B2R (d_fraction v mn mx) /\ B2R (d_fraction v mn mx) <= 1) /\
  (forall v : double, fin v -> B2R mn <= B2R v <= B2R mx ->
     B2R (d_fraction v mn mx) = rnd (rnd (B2R v - B2R mn) / rnd (B2R mx - B2R mn))).
Proof.
  intros M D L. destruct (dsub_finite _ _ D) as [X _].
  assert (P : 0 < rnd (B2R mx - B2R mn)) by now apply rnd_sub_0.
  assert (Z0 : forall z, z = 0 -> rnd z = 0) by (intros z ->; apply round_0; typeclasses eauto).
  split; [|split; [|split]].
  - destruct (d_fraction_value mn mn mx) as (F & E & _); auto; [lra|]. split; [auto|]. rewrite E. apply Z0.
    rewrite (Z0 (B2R mn - B2R mn)) by lra. unfold Rdiv. lra.
  - destruct (d_fraction_value mx mn mx) as (F & E & _); auto; [lra|]. split; [auto|]. rewrite E.
    unfold Rdiv. rewrite Rinv_r by lra. apply round_generic; [typeclasses eauto|apply fmt_1].
  - intros u v U V A B C.
    destruct (d_fraction_value u mn mx) as (F & E & G); auto; [lra|].
    destruct (d_fraction_value v mn mx) as (F' & E' & G'); auto; [lra|].
    repeat split; auto; try lra. rewrite E, E'. apply round_le; [typeclasses eauto..|].
    apply Rmult_le_compat_r; [left; now apply Rinv_0_lt_compat|]. apply round_le; [typeclasses eauto..|lra].
  - intros v V B. now destruct (d_fraction_value v mn mx) as (_ & E & _).
Qed.

Lemma dadd_value' (x y : double) : fin x -> fin y -> Rabs (rnd (B2R x + B2R y)) < bpow radix2 1024 ->
  fin (dadd x y) /\ B2R (dadd x y) = rnd (B2R x + B2R y).
Proof.
  intros X Y H. pose proof (Bplus_correct 53 1024 double_prec double_emax mode_NE x y X Y) as C.
  change (round_mode mode_NE) with ZnearestE in C. rewrite Rlt_bool_true in C by auto. destruct C as (C1 & C2 & _). auto.
Qed.
Lemma interpolate_exact_width (mn mx w f : double) : fin mn -> fin mx -> fin w -> B2R w = B2R mx - B2R mn -> B2R mn <= B2R mx -> fin f -> 0 <= B2R f <= 1 ->
  fin (d_interpolate f mn mx) /\ B2R mn <= B2R (d_interpolate f mn mx) <= B2R mx /\
  (B2R f = 0 -> B2R (d_interpolate f mn mx) = B2R mn) /\ (B2R f = 1 -> B2R (d_interpolate f mn mx) = B2R mx).
Proof.
  intros M X Wf W L F H.
  assert (E : rnd (B2R mx - B2R mn) = B2R mx - B2R mn) by (rewrite <- W; apply rnd_id, fmt_B).
  pose proof (Bminus_correct 53 1024 double_prec double_emax mode_NE mx mn X M) as C.
  change (round_mode mode_NE) with ZnearestE in C. rewrite E, <- W in C. rewrite Rlt_bool_true in C by apply abs_B2R_lt_emax.
  destruct C as (C1 & C2 & _). change (Bminus mode_NE mx mn) with (dsub mx mn) in C1, C2.
  assert (A : 0 <= rnd (B2R f * B2R w) <= B2R w).
  { split; [apply rnd_ge_fmt; [apply fmt_0|nra]|apply rnd_le_fmt; [apply fmt_B|nra]]. }
  destruct (dmul_value f (dsub mx mn) F C2) as [M1 M2]; rewrite C1 in *.
  { pose proof (abs_B2R_lt_emax 53 1024 w) as Q. rewrite Rabs_pos_eq in * by lra. lra. }
  assert (B : B2R mn <= rnd (B2R mn + B2R (dmul f (dsub mx mn))) <= B2R mx).
  { rewrite M1. split; [apply rnd_ge_fmt; [apply fmt_B|lra]|apply rnd_le_fmt; [apply fmt_B|lra]]. }
  destruct (dadd_value' mn _ M M2) as [A1 A2].
  { pose proof (abs_B2R_lt_emax 53 1024 mn) as Q1. pose proof (abs_B2R_lt_emax 53 1024 mx) as Q2.
    apply Rabs_lt. apply Rabs_lt_inv in Q1. apply Rabs_lt_inv in Q2. lra. }
  unfold d_interpolate. rewrite A2. split; [exact A1|]. split; [exact B|]. rewrite M1. split; intros O; rewrite O.
  - rewrite Rmult_0_l, (rnd_id 0) by apply fmt_0. rewrite Rplus_0_r. apply rnd_id, fmt_B.
  - rewrite Rmult_1_l, (rnd_id (B2R w)) by apply fmt_B. rewrite W. replace (B2R mn + (B2R mx - B2R mn)) with (B2R mx) by lra. apply rnd_id, fmt_B.
Qed.
