(** Integer interpolation between ends of any distance. *)
From Coq Require Import Reals Psatz.
From Flocq Require Import Core IEEE754.BinarySingleNaN.
From Verif Require Import Base BaseFacts Range_Model Range_Spec Range_Proofs IntRange_Proofs Float_Model Float_Spec Float_Proofs Interp_Proofs.
Local Open Scope R_scope.

#[local] Instance wve : Valid_exp dexp := fexp_correct 53 1024 double_prec.

Lemma rnd_bounded (r : R) (e : Z) : (0 <= e <= 900)%Z -> 0 <= r <= bpow radix2 e -> 0 <= rnd r <= bpow radix2 e.
Proof.
  intros E [P Q]. split; [apply rnd_ge_fmt; [apply fmt_0|exact P]|]. apply rnd_le_fmt; [|exact Q].
  replace (bpow radix2 e) with (IZR 1 * bpow radix2 e) by (rewrite Rmult_1_l; reflexivity). apply fmt_scaled; lia.
Qed.

Lemma of_int_rnd z : (0 <= z <= 2 ^ 64)%Z -> B2R (of_int z) = rnd (IZR z) /\ is_finite (of_int z) = true.
Proof.
  intros H. pose proof (binary_normalize_correct 53 1024 double_prec double_emax mode_NE z 0 false) as C. cbv zeta in C.
  assert (E : F2R (Float radix2 z 0) = IZR z) by (unfold F2R; simpl; ring). rewrite E in C.
  change (round_mode mode_NE) with ZnearestE in C.
  rewrite Rlt_bool_true in C.
  - destruct C as (C1 & C2 & _). split; auto.
  - destruct (rnd_bounded (IZR z) 64) as [P Q]; [lia| |].
    + split; [apply IZR_le; lia|]. change (bpow radix2 64) with (IZR (2 ^ 64)). apply IZR_le. lia.
    + rewrite Rabs_pos_eq by exact P. apply Rle_lt_trans with (1 := Q). apply bpow_lt. lia.
Qed.

(** The nearest double of an integer below 2^64 is at most 1024 away. *)
Lemma rnd_int_error z : (0 <= z <= 2 ^ 64 - 1)%Z -> Rabs (rnd (IZR z) - IZR z) <= 1024.
Proof.
  intros H. destruct (Z.eq_dec z 0) as [->|N].
  { rewrite rnd_id by apply fmt_0. rewrite Rminus_0_r, Rabs_R0. lra. }
  apply Rle_trans with (1 := error_le_half_ulp radix2 dexp _ (IZR z)).
  assert (U : ulp radix2 dexp (IZR z) <= bpow radix2 11); [|change (bpow radix2 11) with 2048 in U; lra].
  rewrite ulp_neq_0 by (apply IZR_neq; exact N). unfold cexp. apply bpow_le.
  assert (M : (mag radix2 (IZR z) <= 64)%Z).
  { apply mag_le_bpow; [apply IZR_neq; exact N|]. rewrite <- abs_IZR. change (bpow radix2 64) with (IZR (2 ^ 64)). apply IZR_lt. lia. }
  unfold SpecFloat.fexp, SpecFloat.emin. lia.
Qed.

Lemma usual_hi t : usual t -> (0 < it_hi t <= 2 ^ 64 - 1)%Z.
Proof.
  unfold usual, it_hi. intros [E|[E|[E|[E|[]]]]]; rewrite <- E; destruct (it_signed t); lia.
Qed.

Lemma interpolate_any_width t mn mx (f : double) : usual t -> z_ok t mn -> z_ok t mx -> (mn <= mx)%Z ->
  is_finite f = true -> 0 <= B2R f <= 1 ->
  let w := (mx - mn)%Z in
  let k := Ztrunc (rnd (B2R f * rnd (IZR w))) in
  (0 <= k <= w + 1024)%Z /\ ((w <= 2 ^ 53)%Z -> (k <= w)%Z) /\
  (it_signed t = true -> (32 <= it_bits t)%Z -> (it_hi t < w)%Z -> i_interpolate t f mn mx = UB) /\
  (it_signed t = false \/ (it_bits t < 32)%Z \/ (w <= it_hi t)%Z ->
     ((it_hi t < k)%Z -> i_interpolate t f mn mx = UB) /\
     ((k <= it_hi t)%Z -> (mn + k <= it_hi t)%Z -> i_interpolate t f mn mx = Ok (mn + k)%Z) /\
     ((k <= it_hi t)%Z -> (it_hi t < mn + k)%Z ->
        i_interpolate t f mn mx = if it_signed t then UB else Ok (mn + k - 2 ^ it_bits t)%Z)).
Proof.
  intros U A B L Ff H w k.
  assert (W : (0 <= w <= 2 ^ 64 - 1)%Z).
  { unfold w, z_ok, it_lo, it_hi, usual in *. destruct U as [E|[E|[E|[E|[]]]]]; rewrite <- E in *; destruct (it_signed t); lia. }
  destruct (of_int_rnd w ltac:(lia)) as [Wv Wf].
  destruct (rnd_bounded (IZR w) 64) as [P Q]; [lia| |].
  { split; [apply IZR_le; lia|]. change (bpow radix2 64) with (IZR (2 ^ 64)). apply IZR_le. lia. }
  assert (R1 : 0 <= rnd (B2R f * rnd (IZR w)) <= rnd (IZR w)).
  { split; [apply rnd_ge_fmt; [apply fmt_0|]; nra|]. apply rnd_le_fmt; [apply generic_format_round; [apply wve|apply valid_rnd_N]|nra]. }
  assert (K0 : (0 <= k)%Z) by (unfold k; rewrite Ztrunc_floor by apply R1; apply Zfloor_lub; apply R1).
  assert (KR : IZR k <= rnd (IZR w)).
  { unfold k. rewrite Ztrunc_floor by apply R1. apply Rle_trans with (2 := proj2 R1). apply Zfloor_lb. }
  assert (K1 : (k <= w + 1024)%Z).
  { apply le_IZR. rewrite plus_IZR. pose proof (rnd_int_error w W) as X. apply Rabs_le_inv in X. lra. }
  assert (K2 : (w <= 2 ^ 53)%Z -> (k <= w)%Z).
  { intros S. apply le_IZR. rewrite rnd_id in KR by (apply fmt_int; lia). exact KR. }
  split; [lia|]. split; [exact K2|].
  assert (MV : to_int t (dmul f (of_int w)) = if (k <=? it_hi t)%Z then Ok k else UB).
  { destruct (dmul_value f (of_int w) Ff Wf) as [M1 M2].
    { rewrite Wv. rewrite Rabs_pos_eq by apply R1. apply Rle_lt_trans with (1 := proj2 R1). apply Rle_lt_trans with (1 := Q). apply bpow_lt. lia. }
    rewrite Wv in M1. unfold to_int. rewrite M2, Btrunc_Ztrunc, M1. fold k. cbn [andb]. unfold it_in.
    assert (Lo : (it_lo t <= 0)%Z) by (unfold it_lo; destruct (it_signed t); lia).
    rewrite (proj2 (Z.leb_le _ _)) by lia. reflexivity. }
  unfold i_interpolate. fold w.
  assert (AR : forall v, it_arith t v = if it_in (promoted t) v then Ok v else if it_signed (promoted t) then UB else Ok (it_conv (promoted t) v)) by reflexivity.
  split.
  - intros S N O. rewrite AR. unfold promoted. rewrite (proj2 (Z.ltb_ge _ _)) by lia. unfold it_in.
    rewrite (proj2 (Z.leb_gt w _)) by lia. rewrite andb_false_r, S. reflexivity.
  - intros C.
    assert (E1 : it_arith t w = Ok w).
    { rewrite AR. replace (it_in (promoted t) w) with true; [reflexivity|]. symmetry. unfold it_in, promoted.
      unfold w, z_ok, it_lo, it_hi, usual in *. destruct t as [s n]. cbn [it_signed it_bits] in *.
      destruct U as [E|[E|[E|[E|[]]]]]; subst n; destruct s; cbn [it_signed it_bits Z.ltb Z.compare Pos.compare Pos.compare_cont] in *;
        apply andb_true_iff; rewrite !Z.leb_le; destruct C as [C|[C|C]]; try discriminate; lia. }
    rewrite E1. cbn [obind]. rewrite MV.
    split; [intros X; rewrite (proj2 (Z.leb_gt _ _)) by lia; reflexivity|].
    split; intros X Y; rewrite (proj2 (Z.leb_le _ _)) by lia; cbn [obind].
    + assert (RK : z_ok t (mn + k)) by (unfold z_ok in *; lia).
      rewrite arith_fits by auto. cbn [obind]. rewrite conv_id by auto. reflexivity.
    + rewrite AR. unfold it_in, promoted, it_conv, z_ok, it_lo, it_hi, usual, w in *. destruct t as [s n]. cbn [it_signed it_bits] in *.
      destruct U as [E|[E|[E|[E|[]]]]]; subst n; destruct s; cbn [it_signed it_bits Z.ltb Z.compare Pos.compare Pos.compare_cont] in *;
        try (exfalso; lia).
      * rewrite (proj2 (Z.leb_gt (mn + k) _)) by lia. rewrite andb_false_r. reflexivity.
      * rewrite (proj2 (Z.leb_gt (mn + k) _)) by lia. rewrite andb_false_r. cbn [obind]. f_equal.
        rewrite !Z.sub_0_r, !Z.add_0_r, Z.mod_mod by lia.
        rewrite <- (Z_mod_plus_full (mn + k) (-1) (2 ^ 64)). rewrite Z.mod_small; lia.
Qed.

(** ** fraction *)
Lemma arith_distance t x y : usual t -> z_ok t x -> z_ok t y -> (y <= x)%Z ->
  it_arith t (x - y) = if it_signed t && (32 <=? it_bits t)%Z && (it_hi t <? x - y)%Z then UB else Ok (x - y)%Z.
Proof.
  intros U A B L. unfold it_arith, it_in, promoted. unfold z_ok, it_lo, it_hi, usual in *. destruct t as [s n]. cbn [it_signed it_bits] in *.
  destruct U as [E|[E|[E|[E|[]]]]]; subst n; destruct s; cbn [it_signed it_bits Z.ltb Z.leb Z.compare Pos.compare Pos.compare_cont andb] in *;
    rewrite (proj2 (Z.leb_le _ (x - y))) by lia; cbn [andb];
    match goal with |- context[(x - y <=? ?h)%Z] => destruct (Z.leb_spec (x - y) h) end; try lia; try reflexivity;
    match goal with |- context[(?h <? x - y)%Z] => destruct (Z.ltb_spec h (x - y)) end; try lia; reflexivity.
Qed.

Lemma rnd_int_pos z : (0 < z)%Z -> (z <= 2 ^ 64)%Z -> 1 <= rnd (IZR z).
Proof. intros H _. apply rnd_ge_fmt; [apply fmt_1|]. apply IZR_le. lia. Qed.

Lemma fraction_any_width t mn mx : usual t -> z_ok t mn -> z_ok t mx -> (mn < mx)%Z ->
  (it_signed t = true -> (32 <= it_bits t)%Z -> (it_hi t < mx - mn)%Z -> forall v, (mn <= v <= mx)%Z -> i_fraction t v mn mx = UB) /\
  (it_signed t = false \/ (it_bits t < 32)%Z \/ (mx - mn <= it_hi t)%Z ->
     (forall v, (mn <= v <= mx)%Z -> exists f, i_fraction t v mn mx = Ok f /\ is_finite f = true /\
        B2R f = rnd (rnd (IZR (v - mn)) / rnd (IZR (mx - mn))) /\ 0 <= B2R f <= 1 /\
        (v = mn -> B2R f = 0) /\ (v = mx -> B2R f = 1)) /\
     (forall u v f g, (mn <= u)%Z -> (u <= v)%Z -> (v <= mx)%Z -> i_fraction t u mn mx = Ok f -> i_fraction t v mn mx = Ok g ->
        B2R f <= B2R g)).
Proof.
  intros U A B L.
  assert (NE : c_eq zcmp mx mn = false).
  { unfold c_eq, zcmp. destruct (Z.compare_spec mx mn); try reflexivity; lia. }
  assert (OK : forall v, (mn <= v <= mx)%Z -> z_ok t v) by (intros v H; unfold z_ok in *; lia).
  split.
  - intros S N O v H. unfold i_fraction. rewrite NE.
    rewrite (arith_distance t v mn), (arith_distance t mx mn) by (auto; lia). rewrite S, (proj2 (Z.leb_le _ _) N). cbn [andb].
    rewrite (proj2 (Z.ltb_lt _ (mx - mn)%Z)) by lia. destruct (it_hi t <? v - mn)%Z; reflexivity.
  - intros C.
    assert (D : forall x, (mn <= x <= mx)%Z -> it_arith t (x - mn) = Ok (x - mn)%Z).
    { intros x H. rewrite arith_distance by (auto; lia).
      replace (it_signed t && (32 <=? it_bits t)%Z && (it_hi t <? x - mn)%Z) with false; [reflexivity|].
      symmetry. destruct C as [->|[C|C]]; [reflexivity| |].
      - rewrite (proj2 (Z.leb_gt _ _)) by lia. now rewrite andb_false_r.
      - rewrite (proj2 (Z.ltb_ge _ _)) by lia. now rewrite andb_false_r. }
    assert (W : (0 < mx - mn <= 2 ^ 64 - 1)%Z).
    { unfold z_ok, it_lo, it_hi, usual in *. destruct U as [E|[E|[E|[E|[]]]]]; rewrite <- E in *; destruct (it_signed t); lia. }
    destruct (of_int_rnd (mx - mn)%Z ltac:(lia)) as [Wv Wf].
    pose proof (rnd_int_pos (mx - mn)%Z ltac:(lia) ltac:(lia)) as W1.
    assert (V : forall v, (mn <= v <= mx)%Z -> exists f, i_fraction t v mn mx = Ok f /\ is_finite f = true /\
        B2R f = rnd (rnd (IZR (v - mn)) / rnd (IZR (mx - mn))) /\ 0 <= B2R f <= 1).
    { intros v H. unfold i_fraction. rewrite NE, (D v), (D mx) by lia. cbn [obind]. eexists. split; [reflexivity|].
      destruct (of_int_rnd (v - mn)%Z ltac:(lia)) as [Av Af].
      assert (Q : 0 <= rnd (IZR (v - mn)) / rnd (IZR (mx - mn)) <= 1).
      { assert (P : 0 <= rnd (IZR (v - mn)) <= rnd (IZR (mx - mn))).
        { split; [apply rnd_ge_fmt; [apply fmt_0|]; apply IZR_le; lia|]. apply rnd_le, IZR_le. lia. }
        split; [apply Rmult_le_pos; [apply P|]; left; apply Rinv_0_lt_compat; lra|].
        apply Rmult_le_reg_r with (rnd (IZR (mx - mn))); [lra|]. unfold Rdiv. rewrite Rmult_assoc, Rinv_l by lra. lra. }
      assert (QR : 0 <= rnd (rnd (IZR (v - mn)) / rnd (IZR (mx - mn))) <= 1).
      { split; [apply rnd_ge_fmt; [apply fmt_0|apply Q]|apply rnd_le_fmt; [apply fmt_1|apply Q]]. }
      destruct (ddiv_value (of_int (v - mn)) (of_int (mx - mn)) Af) as [M1 M2].
      { rewrite Wv. lra. }
      { rewrite Av, Wv, Rabs_pos_eq by apply QR. apply Rle_lt_trans with (1 := proj2 QR). change 1 with (bpow radix2 0). apply bpow_lt. lia. }
      rewrite Av, Wv in M1. rewrite M1. auto. }
    split.
    + intros v H. destruct (V v H) as (f & E & Ff & Fv & Fb). exists f. split; [exact E|]. split; [exact Ff|]. split; [exact Fv|]. split; [exact Fb|].
      split; intros ->; rewrite Fv.
      * rewrite Z.sub_diag, (rnd_id 0) by apply fmt_0. unfold Rdiv. rewrite Rmult_0_l. apply rnd_id, fmt_0.
      * unfold Rdiv. rewrite Rinv_r by lra. apply rnd_id, fmt_1.
    + intros u v f g H1 H2 H3 E1 E2. destruct (V u ltac:(lia)) as (f' & F1 & _ & F2 & _). destruct (V v ltac:(lia)) as (g' & G1 & _ & G2 & _).
      rewrite E1 in F1. injection F1 as <-. rewrite E2 in G1. injection G1 as <-. rewrite F2, G2.
      apply rnd_le. apply Rmult_le_compat_r; [left; apply Rinv_0_lt_compat; lra|]. apply rnd_le, IZR_le. lia.
Qed.
