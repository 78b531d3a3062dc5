From Coq Require Import Reals Psatz.
From Flocq Require Import Core IEEE754.BinarySingleNaN.
From Verif Require Import Base BaseFacts Range_Model Range_Spec Range_Proofs IntRange_Proofs Float_Model Float_Spec Float_Proofs.
Local Open Scope R_scope.

Notation fmt := (generic_format radix2 dexp).
#[local] Instance dve : Valid_exp dexp := fexp_correct 53 1024 double_prec.
#[local] Instance dme : Monotone_exp dexp := fexp_monotone 53 1024.

Lemma fmt_B (x : double) : fmt (B2R x).
Proof. apply generic_format_B2R. Qed.
Lemma two53 : IZR (2 ^ 53) = bpow radix2 53.
Proof. change (2 ^ 53)%Z with (Zpower radix2 53). apply IZR_Zpower. lia. Qed.
Lemma fmt_scaled (m e : Z) : (Z.abs m <= 2 ^ 53)%Z -> (-1000 <= e <= 900)%Z -> fmt (IZR m * bpow radix2 e).
Proof.
  intros M E. destruct (Z.eq_dec (Z.abs m) (2 ^ 53)) as [A|A].
  - assert (G : fmt (bpow radix2 (53 + e))). { apply generic_format_bpow. unfold SpecFloat.fexp, SpecFloat.emin. lia. }
    rewrite bpow_plus, <- two53 in G.
    destruct (Z.abs_spec m) as [[_ B]|[_ B]]; rewrite B in A.
    + rewrite A. exact G.
    + replace m with (- 2 ^ 53)%Z by lia. rewrite opp_IZR, Ropp_mult_distr_l_reverse. apply generic_format_opp. exact G.
  - change dexp with (FLT_exp (SpecFloat.emin 53 1024) 53). apply generic_format_FLT.
    exists (Float radix2 m e); [reflexivity| |]; cbn [Fnum Fexp]; unfold SpecFloat.emin; try lia. change (Zpower radix2 53) with (2 ^ 53)%Z. lia.
Qed.
Lemma fmt_int m : (Z.abs m <= 2 ^ 53)%Z -> fmt (IZR m).
Proof. intros M. replace (IZR m) with (IZR m * bpow radix2 0) by (simpl; ring). apply fmt_scaled; lia. Qed.
Lemma fmt_half m : (Z.abs m <= 2 ^ 53)%Z -> fmt (IZR m / 2).
Proof. intros M. replace (IZR m / 2) with (IZR m * bpow radix2 (-1)) by (simpl; lra). apply fmt_scaled; lia. Qed.
Lemma small_bpow (r : R) : Rabs r <= bpow radix2 53 -> Rabs r < bpow radix2 1024.
Proof. intros H. apply Rle_lt_trans with (1 := H). apply bpow_lt. lia. Qed.

Lemma of_int_exact z : (Z.abs z <= 2 ^ 53)%Z -> B2R (of_int z) = IZR z /\ is_finite (of_int z) = true.
Proof.
  intros H. pose proof (binary_normalize_correct 53 1024 double_prec double_emax mode_NE z 0 false) as C. cbv zeta in C.
  assert (E : F2R (Float radix2 z 0) = IZR z) by (unfold F2R; simpl; ring). rewrite E in C.
  assert (G : round radix2 dexp (round_mode mode_NE) (IZR z) = IZR z).
  { apply round_generic; [apply valid_rnd_round_mode|]. apply fmt_int; auto. }
  rewrite G, Rlt_bool_true in C.
  - destruct C as (C1 & C2 & _). split; auto.
  - apply small_bpow. rewrite <- abs_IZR, <- two53. apply IZR_le. exact H.
Qed.
Lemma Btrunc_Ztrunc (x : double) : Btrunc x = Ztrunc (B2R x).
Proof. apply eq_IZR. rewrite Btrunc_correct by exact double_emax. apply round_FIX_IZR. Qed.

Lemma dmul_value (x y : double) : is_finite x = true -> is_finite y = true -> Rabs (rnd (B2R x * B2R y)) < bpow radix2 1024 ->
  B2R (dmul x y) = rnd (B2R x * B2R y) /\ is_finite (dmul x y) = true.
Proof.
  intros X Y H. pose proof (Bmult_correct 53 1024 double_prec double_emax mode_NE x y) as C.
  change (round_mode mode_NE) with ZnearestE in C. rewrite Rlt_bool_true in C by auto.
  destruct C as (C1 & C2 & _). rewrite X, Y in C2. auto.
Qed.
Lemma ddiv_value (x y : double) : is_finite x = true -> B2R y <> 0 -> Rabs (rnd (B2R x / B2R y)) < bpow radix2 1024 ->
  B2R (ddiv x y) = rnd (B2R x / B2R y) /\ is_finite (ddiv x y) = true.
Proof.
  intros X Y H. pose proof (Bdiv_correct 53 1024 double_prec double_emax mode_NE x y Y) as C.
  change (round_mode mode_NE) with ZnearestE in C. rewrite Rlt_bool_true in C by auto.
  destruct C as (C1 & C2 & _). rewrite X in C2. auto.
Qed.
Lemma rnd_le x y : x <= y -> rnd x <= rnd y.
Proof. apply round_le; [apply dve|apply valid_rnd_N]. Qed.
Lemma rnd_ge_fmt x y : fmt x -> x <= y -> x <= rnd y.
Proof. apply round_ge_generic; [apply dve|apply valid_rnd_N]. Qed.
Lemma rnd_le_fmt x y : fmt y -> x <= y -> rnd x <= y.
Proof. apply round_le_generic; [apply dve|apply valid_rnd_N]. Qed.
Lemma rnd_id x : fmt x -> rnd x = x.
Proof. apply round_generic. apply valid_rnd_N. Qed.
Lemma fmt_0 : fmt 0.
Proof. apply generic_format_0. Qed.
Lemma fmt_1 : fmt 1.
Proof. apply (fmt_int 1). lia. Qed.

(** * Integer interpolation *)
Section Int.
Variables (t : ity) (mn mx : Z).
Hypothesis U : usual t.
Hypotheses (A : z_ok t mn) (B : z_ok t mx) (L : (mn <= mx)%Z) (F : (mx - mn <= it_hi t)%Z) (S : (mx - mn <= 2 ^ 53)%Z).
Let w := (mx - mn)%Z.

Lemma w_ok : z_ok t w.
Proof. unfold w, z_ok in *. split; [|lia]. unfold it_lo. destruct (it_signed t); try lia. Qed.
Lemma w_arith : it_arith t w = Ok w.
Proof. apply arith_fits; auto. apply w_ok. Qed.
Lemma w_val : B2R (of_int w) = IZR w /\ is_finite (of_int w) = true.
Proof. apply of_int_exact. unfold w. lia. Qed.
Lemma fw_bounds f : 0 <= f <= 1 -> 0 <= rnd (f * IZR w) <= IZR w.
Proof.
  intros H. assert (W : 0 <= IZR w) by (apply IZR_le; unfold w; lia).
  split; [apply rnd_ge_fmt; [apply fmt_0|]; nra|]. apply rnd_le_fmt; [apply fmt_int; unfold w; lia|]. nra.
Qed.
Lemma trunc_bounds r : 0 <= r <= IZR w -> (0 <= Ztrunc r <= w)%Z.
Proof.
  intros [P Q]. rewrite Ztrunc_floor by auto. split; [apply Zfloor_lub; auto|]. apply le_IZR. apply Rle_trans with (2 := Q). apply Zfloor_lb.
Qed.
Lemma w_small : IZR w <= bpow radix2 53.
Proof. rewrite <- two53. apply IZR_le. unfold w. lia. Qed.
(** The exact result. *)
Lemma i_interpolate_value (f : double) : is_finite f = true -> 0 <= B2R f <= 1 ->
  i_interpolate t f mn mx = Ok (mn + Ztrunc (rnd (B2R f * IZR w)))%Z.
Proof.
  intros Ff H. unfold i_interpolate. fold w. rewrite w_arith. cbn [obind].
  destruct w_val as [Wv Wf]. pose proof (fw_bounds (B2R f) H) as K.
  destruct (dmul_value f (of_int w) Ff Wf) as [M1 M2].
  { rewrite Wv. apply small_bpow. rewrite Rabs_pos_eq by apply K. apply Rle_trans with (1 := proj2 K). apply w_small. }
  rewrite Wv in M1. unfold to_int. rewrite M2, Btrunc_Ztrunc, M1. cbn [andb].
  pose proof (trunc_bounds _ K) as T. pose proof w_ok as W.
  assert (TK : z_ok t (Ztrunc (rnd (B2R f * IZR w)))).
  { unfold z_ok in *. split; [|lia]. unfold it_lo. destruct (it_signed t); try lia. }
  replace (it_in t (Ztrunc (rnd (B2R f * IZR w)))) with true
    by (symmetry; unfold it_in; apply andb_true_iff; rewrite !Z.leb_le; unfold z_ok in TK; lia).
  cbn [obind]. assert (RK : z_ok t (mn + Ztrunc (rnd (B2R f * IZR w)))) by (unfold z_ok, w in *; lia).
  rewrite arith_fits by auto. cbn [obind]. rewrite conv_id by auto. reflexivity.
Qed.
Lemma i_interpolate_inside (f : double) : is_finite f = true -> 0 <= B2R f <= 1 ->
  exists r, i_interpolate t f mn mx = Ok r /\ (mn <= r <= mx)%Z /\
    (Zfloor (B2R f * IZR (mx - mn)) <= r - mn <= Zfloor (B2R f * IZR (mx - mn)) + 1)%Z.
Proof.
  intros Ff H. eexists. split; [apply i_interpolate_value; auto|]. fold w.
  pose proof (fw_bounds (B2R f) H) as K. pose proof (trunc_bounds _ K) as T. split; [unfold w in *; lia|].
  set (p := B2R f * IZR w) in *. assert (W : 0 <= IZR w) by (apply IZR_le; unfold w; lia).
  assert (P : 0 <= p <= IZR w) by (unfold p; nra).
  assert (Fl : (0 <= Zfloor p <= w)%Z).
  { split; [apply Zfloor_lub; apply P|]. apply le_IZR. apply Rle_trans with (2 := proj2 P). apply Zfloor_lb. }
  replace (mn + Ztrunc (rnd p) - mn)%Z with (Ztrunc (rnd p)) by lia.
  rewrite Ztrunc_floor by apply K. split.
  - apply Zfloor_lub. apply rnd_ge_fmt; [apply fmt_int; unfold w in *; lia|]. apply Zfloor_lb.
  - destruct (Z.eq_dec (Zfloor p) (2 ^ 53)) as [E|E].
    + rewrite E in *. rewrite Ztrunc_floor in T by apply K. unfold w in *. lia.
    + apply le_IZR. apply Rle_trans with (rnd p); [apply Zfloor_lb|].
      apply rnd_le_fmt; [apply fmt_int; unfold w in *; lia|]. rewrite plus_IZR. apply Rlt_le, Zfloor_ub.
Qed.
Lemma i_interpolate_ends (f : double) : is_finite f = true ->
  (B2R f = 0 -> i_interpolate t f mn mx = Ok mn) /\ (B2R f = 1 -> i_interpolate t f mn mx = Ok mx).
Proof.
  intros Ff. split; intros E; rewrite i_interpolate_value by (auto; rewrite E; lra); rewrite E.
  - rewrite Rmult_0_l, rnd_id by apply fmt_0. rewrite (Ztrunc_IZR 0). f_equal. lia.
  - rewrite Rmult_1_l, rnd_id by (apply fmt_int; unfold w; lia). rewrite Ztrunc_IZR. f_equal. unfold w. lia.
Qed.
Lemma i_interpolate_mono (f g : double) : is_finite f = true -> is_finite g = true -> 0 <= B2R f -> B2R f <= B2R g -> B2R g <= 1 ->
  exists r s, i_interpolate t f mn mx = Ok r /\ i_interpolate t g mn mx = Ok s /\ (r <= s)%Z.
Proof.
  intros Ff Fg H1 H2 H3. eexists. eexists. split; [apply i_interpolate_value; auto; lra|]. split; [apply i_interpolate_value; auto; lra|].
  apply Zplus_le_compat_l. apply Ztrunc_le. apply rnd_le. apply Rmult_le_compat_r; auto. apply IZR_le. unfold w. lia.
Qed.

(** * fraction *)
Variable v : Z.
Hypotheses (V : (mn <= v <= mx)%Z) (N : mn <> mx).
Let a := (v - mn)%Z.
Lemma frac_bounds : 0 <= IZR a / IZR w <= 1.
Proof.
  assert (W : 0 < IZR w) by (apply IZR_lt; unfold w; lia). assert (0 <= IZR a <= IZR w) by (split; apply IZR_le; unfold a, w; lia).
  split.
  - apply Rmult_le_pos; [lra|]. apply Rlt_le, Rinv_0_lt_compat; auto.
  - apply Rmult_le_reg_r with (IZR w); auto. unfold Rdiv. rewrite Rmult_assoc, Rinv_l, Rmult_1_r by lra. lra.
Qed.
Lemma i_fraction_value : exists f, i_fraction t v mn mx = Ok f /\ is_finite f = true /\ B2R f = rnd (IZR a / IZR w) /\ 0 <= B2R f <= 1.
Proof.
  unfold i_fraction. replace (c_eq zcmp mx mn) with false
    by (symmetry; unfold c_eq, zcmp; destruct (Z.compare_spec mx mn); auto; lia).
  fold a. fold w. rewrite w_arith.
  assert (Aok : z_ok t a). { pose proof w_ok as W. unfold z_ok, a, w in *. split; [|lia]. unfold it_lo. destruct (it_signed t); try lia. }
  rewrite (arith_fits t a) by auto. cbn [obind]. eexists. split; [reflexivity|].
  destruct w_val as [Wv Wf]. destruct (of_int_exact a) as [Av Af]; [unfold a in *; lia|].
  pose proof frac_bounds as FB.
  assert (K : 0 <= rnd (IZR a / IZR w) <= 1) by (split; [apply rnd_ge_fmt|apply rnd_le_fmt]; try apply fmt_0; try apply fmt_1; lra).
  destruct (ddiv_value (of_int a) (of_int w)) as [D1 D2]; auto.
  - rewrite Wv. apply IZR_neq. unfold w. lia.
  - rewrite Av, Wv. apply small_bpow. rewrite Rabs_pos_eq by apply K. apply Rle_trans with 1; [apply K|]. change 1 with (bpow radix2 0). apply bpow_le. lia.
  - rewrite Av, Wv in D1. rewrite D1. auto.
Qed.
(** Interpolating back misses by at most one. *)
Lemma round_trip : (w <= 2 ^ 52)%Z -> exists f r, i_fraction t v mn mx = Ok f /\ i_interpolate t f mn mx = Ok r /\ (r = v \/ r = v - 1)%Z.
Proof.
  intros W52. destruct i_fraction_value as (f & E & Ff & Fv & Fb). exists f. eexists. split; [exact E|].
  split; [apply i_interpolate_value; auto|].
  assert (W : 0 < IZR w) by (apply IZR_lt; unfold w; lia).
  assert (W' : IZR w <= bpow radix2 52) by (change (bpow radix2 52) with (IZR (2 ^ 52)); apply IZR_le; auto).
  assert (FB := frac_bounds).
  (* absolute error of the fraction *)
  assert (Err : Rabs (B2R f - IZR a / IZR w) <= / 2 * bpow radix2 (-52)).
  { rewrite Fv. apply Rle_trans with (1 := error_le_half_ulp radix2 dexp (fun n => negb (Z.even n)) (IZR a / IZR w)).
    apply Rmult_le_compat_l; [lra|]. apply Rle_trans with (ulp radix2 dexp 1).
    - apply ulp_le; [apply dve|apply dme|]. rewrite Rabs_pos_eq by apply FB. rewrite Rabs_pos_eq by lra. apply FB.
    - change 1 with (bpow radix2 0). rewrite ulp_bpow. apply bpow_le. unfold SpecFloat.fexp, SpecFloat.emin. lia. }
  set (p := B2R f * IZR w) in *.
  assert (Pe : Rabs (p - IZR a) <= / 2).
  { replace (p - IZR a) with ((B2R f - IZR a / IZR w) * IZR w) by (unfold p; field; lra).
    rewrite Rabs_mult, (Rabs_pos_eq (IZR w)) by lra.
    replace (/ 2) with (/ 2 * bpow radix2 (-52) * bpow radix2 52) by (rewrite Rmult_assoc, <- bpow_plus; simpl; lra).
    apply Rmult_le_compat; try lra. apply Rabs_pos. }
  assert (Pi : IZR a - / 2 <= p <= IZR a + / 2) by (apply Rabs_le_inv in Pe; lra).
  assert (K := fw_bounds (B2R f) Fb). fold p in K. rewrite Ztrunc_floor by apply K.
  assert (Z1 : (a - 1 <= Zfloor (rnd p))%Z).
  { apply Zfloor_lub. apply rnd_ge_fmt; [apply fmt_int; unfold a, w in *; lia|]. rewrite minus_IZR. lra. }
  assert (Z2 : (Zfloor (rnd p) < a + 1)%Z).
  { destruct (Z.eq_dec a (2 ^ 52)) as [E52|N52].
    - assert (Zfloor (rnd p) <= w)%Z; [|unfold a, w in *; lia]. apply le_IZR. apply Rle_trans with (2 := proj2 K). apply Zfloor_lb.
    - apply lt_IZR. apply Rle_lt_trans with (rnd p); [apply Zfloor_lb|]. apply Rle_lt_trans with (IZR (2 * a + 1) / 2).
      + apply rnd_le_fmt; [apply fmt_half; unfold a, w in *; lia|]. rewrite plus_IZR, mult_IZR. lra.
      + rewrite !plus_IZR, mult_IZR. lra. }
  unfold a in *. lia.
Qed.
End Int.
Lemma fraction_ends t mn mx : usual t -> z_ok t mn -> z_ok t mx -> (mn < mx)%Z -> (mx - mn <= it_hi t)%Z -> (mx - mn <= 2 ^ 53)%Z ->
  (exists f, i_fraction t mn mn mx = Ok f /\ is_finite f = true /\ B2R f = 0) /\
  (exists f, i_fraction t mx mn mx = Ok f /\ is_finite f = true /\ B2R f = 1).
Proof.
  intros U A B L F S. split.
  - destruct (i_fraction_value t mn mx U) with (v := mn) as (f & E & Ff & Fv & _); try lia.
    exists f. repeat split; auto. rewrite Fv, Z.sub_diag. unfold Rdiv. rewrite Rmult_0_l. apply rnd_id, fmt_0.
  - destruct (i_fraction_value t mn mx U) with (v := mx) as (f & E & Ff & Fv & _); try lia.
    exists f. repeat split; auto. rewrite Fv. unfold Rdiv. rewrite Rinv_r by (apply IZR_neq; lia). apply rnd_id, fmt_1.
Qed.
Lemma fraction_mono t mn mx u v : usual t -> z_ok t mn -> z_ok t mx -> (mn < mx)%Z -> (mx - mn <= it_hi t)%Z -> (mx - mn <= 2 ^ 53)%Z ->
  (mn <= u)%Z -> (u <= v)%Z -> (v <= mx)%Z ->
  exists f g, i_fraction t u mn mx = Ok f /\ i_fraction t v mn mx = Ok g /\ 0 <= B2R f <= B2R g /\ B2R g <= 1.
Proof.
  intros U A B L F S H1 H2 H3.
  destruct (i_fraction_value t mn mx U) with (v := u) as (f & E & Ff & Fv & Fb); try lia.
  destruct (i_fraction_value t mn mx U) with (v := v) as (g & E' & Fg & Gv & Gb); try lia.
  exists f, g. repeat split; auto; try lra. rewrite Fv, Gv. apply rnd_le. apply Rmult_le_compat_r; [|apply IZR_le; lia].
  apply Rlt_le, Rinv_0_lt_compat. apply IZR_lt. lia.
Qed.

(** * double interpolation *)
Lemma dadd_finite (x y : double) : is_finite (dadd x y) = true -> is_finite x = true /\ is_finite y = true.
Proof. destruct x as [|[]| |[]], y as [|[]| |[]]; try discriminate; auto. Qed.
Lemma dmul_finite (x y : double) : is_finite (dmul x y) = true -> is_finite x = true /\ is_finite y = true.
Proof. destruct x as [|[]| |[]], y as [|[]| |[]]; try discriminate; auto. Qed.
Lemma dsub_finite (x y : double) : is_finite (dsub x y) = true -> is_finite x = true /\ is_finite y = true.
Proof. destruct x as [|[]| |[]], y as [|[]| |[]]; try discriminate; auto. Qed.
Lemma overflow_not_finite (x : double) s : B2SF x = binary_overflow 53 1024 mode_NE s -> is_finite x = false.
Proof. unfold binary_overflow, overflow_to_inf. destruct x; try discriminate; auto. Qed.
Lemma dadd_value (x y : double) : is_finite (dadd x y) = true -> B2R (dadd x y) = rnd (B2R x + B2R y).
Proof.
  intros H. destruct (dadd_finite x y H) as [X Y]. pose proof (Bplus_correct 53 1024 double_prec double_emax mode_NE x y X Y) as C.
  destruct (Rlt_bool _ _); [apply C|]. destruct C as [C _]. fold (dadd x y) in C. apply overflow_not_finite in C. congruence.
Qed.
Lemma dsub_value (x y : double) : is_finite (dsub x y) = true -> B2R (dsub x y) = rnd (B2R x - B2R y).
Proof.
  intros H. destruct (dsub_finite x y H) as [X Y]. pose proof (Bminus_correct 53 1024 double_prec double_emax mode_NE x y X Y) as C.
  destruct (Rlt_bool _ _); [apply C|]. destruct C as [C _]. fold (dsub x y) in C. apply overflow_not_finite in C. congruence.
Qed.
Lemma dmul_value' (x y : double) : is_finite (dmul x y) = true -> B2R (dmul x y) = rnd (B2R x * B2R y).
Proof.
  intros H. pose proof (Bmult_correct 53 1024 double_prec double_emax mode_NE x y) as C.
  destruct (Rlt_bool _ _); [apply C|]. fold (dmul x y) in C. apply overflow_not_finite in C. congruence.
Qed.
Lemma d_interpolate_value (f mn mx : double) : is_finite (d_interpolate f mn mx) = true ->
  B2R (d_interpolate f mn mx) = rnd (B2R mn + rnd (B2R f * rnd (B2R mx - B2R mn))).
Proof.
  intros H. unfold d_interpolate in *. rewrite dadd_value by auto. apply dadd_finite in H. destruct H as [_ H].
  rewrite dmul_value' by auto. apply dmul_finite in H. destruct H as [_ H]. rewrite dsub_value by auto. reflexivity.
Qed.
Lemma d_interpolate_mono (f g mn mx : double) : is_finite (d_interpolate f mn mx) = true -> is_finite (d_interpolate g mn mx) = true ->
  B2R mn <= B2R mx -> B2R f <= B2R g -> B2R (d_interpolate f mn mx) <= B2R (d_interpolate g mn mx).
Proof.
  intros F G L H. rewrite !d_interpolate_value by auto. apply rnd_le. apply Rplus_le_compat_l. apply rnd_le.
  apply Rmult_le_compat_r; auto. apply rnd_ge_fmt; [apply fmt_0|]. lra.
Qed.
Lemma d_interpolate_0 (f mn mx : double) : is_finite f = true -> B2R f = 0 -> is_finite (dsub mx mn) = true ->
  is_finite (d_interpolate f mn mx) = true /\ B2R (d_interpolate f mn mx) = B2R mn.
Proof.
  intros Ff Z D. destruct (dsub_finite _ _ D) as [X N].
  assert (R0 : rnd 0 = 0) by (apply rnd_id, fmt_0).
  assert (b0 : 0 < bpow radix2 1024) by apply bpow_gt_0.
  destruct (dmul_value f (dsub mx mn)) as [M1 M2]; auto. { rewrite Z, Rmult_0_l, R0, Rabs_R0. auto. }
  rewrite Z, Rmult_0_l, R0 in M1.
  pose proof (Bplus_correct 53 1024 double_prec double_emax mode_NE mn (dmul f (dsub mx mn)) N M2) as C.
  rewrite M1, Rplus_0_r in C. change (round_mode mode_NE) with ZnearestE in C. rewrite rnd_id in C by apply fmt_B.
  rewrite Rlt_bool_true in C by apply abs_B2R_lt_emax. destruct C as (C1 & C2 & _). split; auto.
Qed.

(** * Exact arithmetic *)
Lemma r_laws : forall f a b, a <> b ->
  r_fraction (r_interpolate f a b) a b = f /\ (forall v, r_interpolate (r_fraction v a b) a b = v) /\
  r_interpolate 0 a b = a /\ r_interpolate 1 a b = b.
Proof.
  intros f a b N. assert (b - a <> 0) by lra. unfold r_fraction, r_interpolate. repeat split; intros; try field; auto; lra.
Qed.
Lemma r_mono f g a b : f <= g -> a <= b -> r_interpolate f a b <= r_interpolate g a b.
Proof. unfold r_interpolate. intros. nra. Qed.
Lemma r_inside f a b : 0 <= f <= 1 -> a <= b -> a <= r_interpolate f a b <= b.
Proof. unfold r_interpolate. intros. nra. Qed.
