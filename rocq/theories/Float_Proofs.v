From Coq Require Import Reals Psatz.
From Flocq Require Import Core IEEE754.BinarySingleNaN.
From Verif Require Import Base BaseFacts Range_Model Range_Spec Range_Proofs Float_Model Float_Spec.
Local Open Scope R_scope.

Section Format.
Variables (prec emax : Z).
Context (Hp : Prec_gt_0 prec) (He : Prec_lt_emax prec emax).
Notation flt := (binary_float prec emax).
Notation fexp := (SpecFloat.fexp prec emax).
Notation fmt := (generic_format radix2 fexp).
Implicit Types x y : flt.
#[local] Instance ve : Valid_exp fexp := fexp_correct prec emax Hp.
#[local] Instance me : Monotone_exp fexp := fexp_monotone prec emax.

Lemma fmt_of x : fmt (B2R x).
Proof. apply generic_format_B2R. Qed.
Lemma max_finite : is_finite (flt_max : flt) = true.
Proof. reflexivity. Qed.
Lemma max_value : B2R (flt_max : flt) = bpow radix2 emax - bpow radix2 (emax - prec).
Proof.
  unfold flt_max, Bmax_float, SF2B, B2R. unfold F2R. cbn [Fnum Fexp SpecFloat.cond_Zopp].
  assert (P : (0 < prec)%Z) by apply Hp.
  assert (E : Z.pos (shift_pos (Z.to_pos prec) 1 - 1) = (2 ^ prec - 1)%Z).
  { rewrite Pos2Z.inj_sub.
    - rewrite shift_pos_correct, Z.mul_1_r, Z.pow_pos_fold, Z2Pos.id by exact P. reflexivity.
    - change (Z.pos 1 < Z.pos (shift_pos (Z.to_pos prec) 1))%Z.
      rewrite shift_pos_correct, Z.mul_1_r, Z.pow_pos_fold, Z2Pos.id by exact P.
      apply (Zpower_gt_1 radix2). exact P. }
  rewrite E, minus_IZR. change 2%Z with (radix_val radix2). rewrite IZR_Zpower by lia.
  rewrite Rmult_minus_distr_r, <- bpow_plus, Rmult_1_l. f_equal. f_equal. lia.
Qed.
Lemma le_max x : is_finite x = true -> B2R x <= B2R (flt_max : flt).
Proof.
  intros F. rewrite max_value. apply Rle_trans with (Rabs (B2R x)); [apply Rle_abs|]. apply abs_B2R_le_emax_minus_prec. exact Hp.
Qed.
Lemma max_lt_emax : B2R (flt_max : flt) < bpow radix2 emax.
Proof. rewrite max_value. pose proof (bpow_gt_0 radix2 (emax - prec)). lra. Qed.

Lemma one_value : B2R (Bone : flt) = 1.
Proof. apply Bone_correct. Qed.
Lemma min_value : B2R (flt_min : flt) = bpow radix2 (2 - emax) /\ is_finite (flt_min : flt) = true.
Proof.
  assert (P : (0 < prec)%Z) by apply Hp. assert (Q : (prec < emax)%Z) by apply He.
  unfold flt_min. pose proof (Bldexp_correct prec emax Hp He mode_NE Bone (2 - emax)) as C.
  rewrite one_value, Rmult_1_l in C.
  assert (G : round radix2 fexp (round_mode mode_NE) (bpow radix2 (2 - emax)) = bpow radix2 (2 - emax)).
  { apply round_generic; [apply valid_rnd_round_mode|]. apply generic_format_bpow. unfold SpecFloat.fexp, SpecFloat.emin. lia. }
  rewrite G in C. rewrite Rlt_bool_true in C.
  - destruct C as (C1 & C2 & _). split; [exact C1|]. rewrite C2. apply is_finite_Bone.
  - rewrite Rabs_pos_eq by apply bpow_ge_0. apply bpow_lt. lia.
Qed.

Lemma succ_gt (r : R) : r < succ radix2 fexp r.
Proof.
  destruct (Req_dec r 0) as [->|N]; [|apply succ_gt_id; auto].
  rewrite succ_0. change fexp with (FLT_exp (SpecFloat.emin prec emax) prec). rewrite ulp_FLT_0 by exact Hp. apply bpow_gt_0.
Qed.
Lemma pred_lt (r : R) : pred radix2 fexp r < r.
Proof.
  destruct (Req_dec r 0) as [->|N]; [|apply pred_lt_id; auto].
  rewrite pred_0. change fexp with (FLT_exp (SpecFloat.emin prec emax) prec). rewrite ulp_FLT_0 by exact Hp. pose proof (bpow_gt_0 radix2 (SpecFloat.emin prec emax)). lra.
Qed.
Lemma Bsucc_least x : is_finite x = true -> B2R x < B2R (flt_max : flt) ->
  is_finite (Bsucc x) = true /\ B2R x < B2R (Bsucc x) /\ forall y, is_finite y = true -> B2R x < B2R y -> B2R (Bsucc x) <= B2R y.
Proof.
  intros F L. pose proof (Bsucc_correct prec emax Hp He x F) as C.
  assert (S : succ radix2 fexp (B2R x) <= B2R (flt_max : flt)) by (apply succ_le_lt; auto using fmt_of; apply ve).
  rewrite Rlt_bool_true in C by (apply Rle_lt_trans with (1 := S); apply max_lt_emax).
  destruct C as (C1 & C2 & _). rewrite C1. split; [exact C2|]. split; [apply succ_gt|].
  intros y Y H. apply succ_le_lt; auto using fmt_of. apply ve.
Qed.
Lemma Bpred_greatest x : is_finite x = true -> - B2R (flt_max : flt) < B2R x ->
  is_finite (Bpred x) = true /\ B2R (Bpred x) < B2R x /\ forall y, is_finite y = true -> B2R y < B2R x -> B2R y <= B2R (Bpred x).
Proof.
  intros F L. pose proof (Bpred_correct prec emax Hp He x F) as C.
  assert (S : - B2R (flt_max : flt) <= pred radix2 fexp (B2R x)).
  { apply pred_ge_gt; auto using fmt_of; [apply ve|]. apply generic_format_opp, fmt_of. }
  rewrite Rlt_bool_true in C by (pose proof max_lt_emax; lra).
  destruct C as (C1 & C2 & _). rewrite C1. split; [exact C2|]. split; [apply pred_lt|].
  intros y Y H. apply pred_ge_gt; auto using fmt_of. apply ve.
Qed.

(** C73 *)
Lemma next_least x : is_finite x = true -> B2R x < B2R (flt_max : flt) ->
  next_up x (flt_next x).
Proof.
  intros F L. unfold flt_next, nexttoward. rewrite Bcompare_correct by auto using max_finite. rewrite Rcompare_Lt by auto.
  apply Bsucc_least; auto.
Qed.
Lemma next_at_max x : is_finite x = true -> ~ B2R x < B2R (flt_max : flt) -> flt_next x = flt_max.
Proof.
  intros F L. assert (E : B2R x = B2R (flt_max : flt)) by (pose proof (le_max x F); lra).
  unfold flt_next, nexttoward. rewrite Bcompare_correct by auto using max_finite. rewrite Rcompare_Eq by auto. reflexivity.
Qed.
Lemma max_gt_min : B2R (flt_min : flt) <= B2R (flt_max : flt).
Proof. apply le_max. apply min_value. Qed.
Lemma prev_greatest x : is_finite x = true -> bpow radix2 (2 - emax) < B2R x ->
  next_down x (flt_prev x).
Proof.
  intros F L. unfold flt_prev, nexttoward. destruct min_value as [E G]. rewrite Bcompare_correct by auto. rewrite E, Rcompare_Gt by auto.
  apply Bpred_greatest; auto. pose proof max_gt_min. rewrite E in *. pose proof (bpow_gt_0 radix2 (2 - emax)). lra.
Qed.
Lemma prev_wrong_way x : is_finite x = true -> B2R x <= bpow radix2 (2 - emax) ->
  (B2R x < bpow radix2 (2 - emax) -> next_up x (flt_prev x)) /\
  (B2R x = bpow radix2 (2 - emax) -> is_finite (flt_prev x) = true /\ B2R (flt_prev x) = B2R x).
Proof.
  intros F L. unfold flt_prev, nexttoward. destruct min_value as [E G]. rewrite Bcompare_correct by auto. rewrite E.
  destruct (Rcompare_spec (B2R x) (bpow radix2 (2 - emax))) as [H|H|H].
  - split; [intros _|lra]. apply Bsucc_least; auto. pose proof max_gt_min. rewrite E in *. lra.
  - split; [lra|intros _]. split; auto. lra.
  - lra.
Qed.

(** * The order on non-NaN values *)
Notation not_nan := (Float_Spec.not_nan prec emax).
Notation ext_le := (Float_Spec.ext_le prec emax).
Lemma float_ordered : ordered not_nan (@Bcompare prec emax) ext_le.
Proof.
  split; [split|].
  - intros x y X Y. unfold Float_Spec.ext_le, Float_Spec.not_nan in *.
    destruct (is_finite x) eqn:FX, (is_finite y) eqn:FY.
    + destruct (Rle_dec (B2R x) (B2R y)); [left|right]; right; right; repeat split; auto; lra.
    + destruct y as [|[]| |]; try discriminate; tauto.
    + destruct x as [|[]| |]; try discriminate; tauto.
    + destruct x as [|[]| |]; try discriminate; tauto.
  - intros x y z X Y Z. unfold Float_Spec.ext_le. intros [H|[H|(H1 & H2 & H3)]] [K|[K|(K1 & K2 & K3)]]; try tauto; subst; try discriminate.
    right; right. repeat split; auto. lra.
  - intros x y X Y. unfold Float_Spec.ext_le, Float_Spec.not_nan in *.
    destruct (is_finite x) eqn:FX, (is_finite y) eqn:FY.
    + rewrite Bcompare_correct by auto. destruct (Rcompare_spec (B2R x) (B2R y)) as [H|H|H].
      * split; [right; right; repeat split; auto; lra|]. intros [E|[E|(_ & _ & E)]]; [subst; discriminate|subst; discriminate|lra].
      * split; right; right; repeat split; auto; lra.
      * split; [right; right; repeat split; auto; lra|]. intros [E|[E|(_ & _ & E)]]; [subst; discriminate|subst; discriminate|lra].
    + destruct y as [|[]| |]; try discriminate; destruct x as [|[]| |[]]; try discriminate; cbn;
        (split; [tauto|]); intros [E|[E|(E & E' & _)]]; discriminate.
    + destruct x as [|[]| |]; try discriminate; destruct y as [|[]| |[]]; try discriminate; cbn;
        (split; [tauto|]); intros [E|[E|(E & E' & _)]]; discriminate.
    + destruct x as [|[]| |]; try discriminate; destruct y as [|[]| |]; try discriminate; cbn.
      * tauto.
      * split; [tauto|]. intros [E|[E|(E & _)]]; discriminate.
      * split; [tauto|]. intros [E|[E|(E & _)]]; discriminate.
      * tauto.
Qed.
(** C81: a NaN is inside every range. *)
Lemma nan_contained lk hk (r : vrange flt) : contains Bcompare lk hk r B754_nan = true.
Proof. unfold contains, below_min, above_max, c_lt, c_le, c_gt, c_ge. destruct lk, hk, (vmin r) as [|[]| |], (vmax r) as [|[]| |]; reflexivity. Qed.
Lemma default_bounds_contains x : is_finite x = true ->
  contains Bcompare closed closed (VR (flt_min : flt) (flt_max : flt)) x = true <-> bpow radix2 (2 - emax) <= B2R x.
Proof.
  intros F. destruct min_value as [E G].
  assert (N : not_nan flt_min) by (unfold Float_Spec.not_nan; destruct (flt_min : flt); easy).
  assert (N' : not_nan x) by (unfold Float_Spec.not_nan; destruct x; easy).
  rewrite (contains_iff _ _ _ float_ordered); auto; [|easy].
  unfold in_interval, after_start, before_end, Float_Spec.ext_le. cbn [vmin vmax]. rewrite E. split.
  - intros [[H|[H|(_ & _ & H)]] _]; auto; subst; [rewrite H in G|]; discriminate.
  - intros H. split; right; right; repeat split; auto using le_max.
Qed.
End Format.
