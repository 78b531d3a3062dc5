From Coq Require Import Reals Psatz.
From Flocq Require Import Core IEEE754.BinarySingleNaN.
From Verif Require Import Base BaseFacts Range_Model Range_Spec Range_Proofs IntRange_Proofs Float_Model Float_Spec Float_Proofs Interp_Proofs.
Local Open Scope R_scope.
#[local] Instance dve' : Valid_exp dexp := fexp_correct 53 1024 double_prec.

(** Half of a positive double, rounded, is at most its predecessor. *)
Lemma half_lt (x : double) : is_finite x = true -> 0 < B2R x -> rnd (B2R x / 2) = 0 \/ exists g, fmt g /\ B2R x / 2 <= g < B2R x.
Proof.
  intros F P. destruct x as [| | |[] m e H]; try discriminate; cbn [B2R] in P; try lra.
  - exfalso. revert P. apply Rle_not_lt. apply F2R_le_0. simpl. lia.
  - destruct (Pos.eq_dec m 1) as [->|M].
    + left. assert (E : e = (-1074)%Z).
      { pose proof H as H'. unfold SpecFloat.bounded in H'. apply andb_true_iff in H'. destruct H' as [H' _].
        unfold SpecFloat.canonical_mantissa in H'. apply Zeq_bool_eq in H'.
        cbn [SpecFloat.digits2_pos] in H'. unfold SpecFloat.fexp, SpecFloat.emin in H'. lia. }
      subst e. set (x := B754_finite false 1 (-1074) H : double).
      assert (D : B2SF (ddiv x (of_int 2)) = SpecFloat.S754_zero false) by (vm_compute; reflexivity).
      destruct (of_int_exact 2) as [T1 T2]; [lia|].
      destruct (ddiv_value x (of_int 2)) as [V1 V2]; auto.
      * rewrite T1. lra.
      * rewrite T1. apply Rle_lt_trans with (Rabs (B2R x)); [|apply abs_B2R_lt_emax].
        assert (0 < B2R x) by (apply F2R_gt_0; simpl; lia).
        assert (rnd (B2R x / 2) <= B2R x) by (apply rnd_le_fmt; [apply fmt_B|lra]).
        assert (0 <= rnd (B2R x / 2)) by (apply rnd_ge_fmt; [apply fmt_0|lra]).
        rewrite !Rabs_pos_eq by lra. auto.
      * rewrite T1 in V1. rewrite <- SF2R_B2SF, D in V1. symmetry. exact V1.
    + right. exists (F2R (Float radix2 ((Z.pos m + 1) / 2) e)).
      assert (Hm : (2 <= Z.pos m)%Z) by lia.
      assert (Hd : ((Z.pos m + 1) / 2 < Z.pos m /\ Z.pos m <= 2 * ((Z.pos m + 1) / 2))%Z).
      { pose proof (Z.div_mod (Z.pos m + 1) 2). pose proof (Z.mod_pos_bound (Z.pos m + 1) 2). lia. }
      split; [|split].
      * change dexp with (FLT_exp (SpecFloat.emin 53 1024) 53). apply generic_format_FLT.
        exists (Float radix2 ((Z.pos m + 1) / 2) e); [reflexivity| |]; cbn [Fnum Fexp].
        -- pose proof H as H'. unfold SpecFloat.bounded in H'. apply andb_true_iff in H'. destruct H' as [H' _].
           unfold SpecFloat.canonical_mantissa in H'. apply Zeq_bool_eq in H'.
           assert (B : (Z.pos m < 2 ^ 53)%Z).
           { pose proof (Zpos_digits2_pos m) as Dg. rewrite Dg in H'.
             assert ((Zdigits radix2 (Z.pos m) <= 53)%Z) by (unfold SpecFloat.fexp in H'; lia).
             pose proof (Zdigits_correct radix2 (Z.pos m)) as [_ Q]. rewrite Z.abs_eq in Q by lia.
             apply Z.lt_le_trans with (1 := Q). change (2 ^ 53)%Z with (Zpower radix2 53). apply Zpower_le. auto. }
           change (Zpower radix2 53) with (2 ^ 53)%Z. lia.
        -- pose proof H as H'. unfold SpecFloat.bounded in H'. apply andb_true_iff in H'. destruct H' as [H' _].
           unfold SpecFloat.canonical_mantissa in H'. apply Zeq_bool_eq in H'. unfold SpecFloat.fexp in H'. lia.
      * cbn [B2R SpecFloat.cond_Zopp]. unfold F2R. cbn [Fnum Fexp].
        assert (IZR (Z.pos m) <= 2 * IZR ((Z.pos m + 1) / 2)) by (rewrite <- mult_IZR; apply IZR_le; lia).
        pose proof (bpow_gt_0 radix2 e). nra.
      * cbn [B2R SpecFloat.cond_Zopp]. unfold F2R. cbn [Fnum Fexp]. apply Rmult_lt_compat_r; [apply bpow_gt_0|]. apply IZR_lt. lia.
Qed.
Lemma mid_double b (r : vrange double) : is_finite (vmin r) = true -> is_finite (vmax r) = true -> B2R (vmin r) <= B2R (vmax r) ->
  is_finite (dsub (vmax r) (vmin r)) = true ->
  exists m, vr_mid_double b r = Ok m /\ is_finite m = true /\ B2R (vmin r) <= B2R m <= B2R (vmax r).
Proof.
  intros A B L S. destruct r as [lo hi]. cbn [vmin vmax] in *. unfold vr_mid_double, vr_size_double. cbn [vmin vmax].
  assert (Na : not_nan 53 1024 lo) by (unfold not_nan; destruct lo; easy).
  assert (Nb : not_nan 53 1024 hi) by (unfold not_nan; destruct hi; easy).
  rewrite dassert_ok by (apply (le_iff _ _ _ (float_ordered 53 1024)); auto; right; right; auto).
  cbn [obind noexcept]. eexists. split; [reflexivity|].
  pose proof (dsub_value hi lo S) as Sv. set (s := dsub hi lo) in *. set (d := B2R hi - B2R lo) in *.
  assert (D0 : 0 <= d) by (unfold d; lra).
  assert (S0 : 0 <= B2R s) by (rewrite Sv; apply rnd_ge_fmt; [apply fmt_0|auto]).
  destruct (of_int_exact 2) as [T1 T2]; [lia|].
  assert (Q1 : 0 <= rnd (B2R s / 2) <= B2R s).
  { split; [apply rnd_ge_fmt; [apply fmt_0|lra]|]. apply rnd_le_fmt; [apply fmt_B|lra]. }
  destruct (ddiv_value s (of_int 2)) as [V1 V2]; auto.
  { rewrite T1. lra. }
  { rewrite T1. apply Rle_lt_trans with (Rabs (B2R s)); [|apply abs_B2R_lt_emax]. rewrite !Rabs_pos_eq by lra. lra. }
  rewrite T1 in V1.
  assert (Q2 : rnd (B2R s / 2) <= d).
  { destruct (Rle_dec (B2R s) d) as [H|H]; [lra|].
    destruct (half_lt s S) as [E|(g & G1 & G2)]; [lra|lra|].
    apply Rle_trans with g; [apply rnd_le_fmt; [auto|lra]|].
    destruct (Rle_dec g d) as [K|K]; auto. exfalso. assert (rnd d <= g) by (apply rnd_le_fmt; [auto|lra]). lra. }
  set (q := ddiv s (of_int 2)) in *.
  assert (M : B2R lo <= rnd (B2R hi - B2R q) <= B2R hi).
  { rewrite V1. split; [apply rnd_ge_fmt; [apply fmt_B|unfold d in *; lra]|]. apply rnd_le_fmt; [apply fmt_B|lra]. }
  pose proof (Bminus_correct 53 1024 double_prec double_emax mode_NE hi q B V2) as C.
  change (round_mode mode_NE) with ZnearestE in C. rewrite Rlt_bool_true in C.
  - destruct C as (C1 & C2 & _). unfold dsub. rewrite C1. auto.
  - pose proof (abs_B2R_lt_emax 53 1024 lo) as E1. pose proof (abs_B2R_lt_emax 53 1024 hi) as E2.
    apply Rabs_lt. apply Rabs_lt_inv in E1. apply Rabs_lt_inv in E2. lra.
Qed.
