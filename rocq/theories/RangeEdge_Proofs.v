From Coq Require Import Reals Psatz.
From Flocq Require Import Core IEEE754.BinarySingleNaN.
From Verif Require Import Base BaseFacts Range_Model Range_Spec Range_Proofs IntRange_Proofs Float_Model Float_Spec Float_Proofs FloatMid_Proofs Single_Model.

(** * Clamping into ranges with open ends *)
Section Clamp.
Context {T : Type} (ok : T -> Prop) (cmp : T -> T -> option comparison) (le : T -> T -> Prop) (H : ordered ok cmp le).
Lemma clamp_kinds lk hk r x : valid ok le r -> ok x ->
  exists y, clamp cmp r x = Ok y /\ ok y /\ le (vmin r) y /\ le y (vmax r) /\
    (in_interval le lk hk r x -> y = x) /\
    (in_interval le lk hk r y <->
       in_interval le lk hk r x \/
       (lk = closed /\ lt_of le x (vmin r) /\ (hk = closed \/ lt_of le (vmin r) (vmax r))) \/
       (hk = closed /\ lt_of le (vmax r) x /\ (lk = closed \/ lt_of le (vmin r) (vmax r)))).
Proof.
  intros (V1 & V2 & V3) X. unfold clamp, std_clamp.
  assert (NL : forall a b, ok a -> ok b -> c_lt cmp a b = false -> le b a) by (intros a b A B; apply (nlt_iff ok cmp le H); auto).
  assert (LT : forall a b, ok a -> ok b -> c_lt cmp a b = true -> ~ le b a) by (intros a b A B; apply (lt_iff _ _ _ H); auto).
  assert (NLE : forall a b, ok a -> ok b -> ~ le a b -> le b a) by (exact (nle ok cmp le H)).
  assert (RF : forall a, ok a -> le a a) by (exact (refl ok cmp le H)).
  assert (TR : forall a b c, ok a -> ok b -> ok c -> le a b -> le b c -> le a c) by (exact (to_trans _ _ (proj1 H))).
  destruct (c_lt cmp (vmax r) (vmin r)) eqn:E0; [exfalso; exact (LT _ _ V2 V1 E0 V3)|].
  destruct (c_lt cmp x (vmin r)) eqn:E1.
  - apply LT in E1; auto. assert (le x (vmin r)) by auto. exists (vmin r).
    split; [reflexivity|]. split; auto. split; auto. split; auto.
    assert (NI : ~ in_interval le lk hk r x). { intros [A _]. destruct lk; cbn in A; [auto|destruct A; auto]. }
    split; [intros A; contradiction|].
    assert (NX : ~ lt_of le (vmax r) x). { intros [A B]. apply B. eauto. }
    unfold in_interval, after_start, before_end, lt_of in *. destruct lk, hk; split; intros K;
      repeat match goal with
             | K : _ \/ _ |- _ => destruct K as [K|K]
             | K : _ /\ _ |- _ => destruct K
             end; try discriminate; try contradiction; try tauto; auto.
  - apply NL in E1; auto. destruct (c_lt cmp (vmax r) x) eqn:E2.
    + apply LT in E2; auto. assert (le (vmax r) x) by auto. exists (vmax r).
      split; [reflexivity|]. split; auto. split; auto. split; auto.
      assert (NI : ~ in_interval le lk hk r x). { intros [_ A]. destruct hk; cbn in A; [auto|destruct A; auto]. }
      split; [intros A; contradiction|].
      assert (NX : ~ lt_of le x (vmin r)). { intros [A B]. apply B. eauto. }
      unfold in_interval, after_start, before_end, lt_of in *. destruct lk, hk; split; intros K;
        repeat match goal with
               | K : _ \/ _ |- _ => destruct K as [K|K]
               | K : _ /\ _ |- _ => destruct K
               end; try discriminate; try contradiction; try tauto; auto.
    + apply NL in E2; auto. exists x. split; [reflexivity|]. do 4 (split; [solve [auto]|]).
      split; [solve [auto]|]. intros [K|[K|K]]; auto; exfalso; destruct K as (_ & (_ & K) & _); auto.
Qed.
Lemma bv_clamp_kinds lk hk x r : valid ok le r -> ok x ->
  exists y, bv_clamp cmp (x, r) = Ok (y, r) /\
    (is_in_bounds cmp lk hk (x, r) = true -> y = x) /\
    (is_in_bounds cmp lk hk (y, r) = true <->
       is_in_bounds cmp lk hk (x, r) = true \/
       (lk = closed /\ lt_of le x (vmin r) /\ (hk = closed \/ lt_of le (vmin r) (vmax r))) \/
       (hk = closed /\ lt_of le (vmax r) x /\ (lk = closed \/ lt_of le (vmin r) (vmax r)))).
Proof.
  intros V X. destruct (clamp_kinds lk hk r x V X) as (y & C & Y & _ & _ & I & K).
  exists y. unfold bv_clamp, is_in_bounds. cbn [fst snd]. rewrite C. split; [reflexivity|].
  destruct V as (V1 & V2 & V3).
  rewrite !(contains_iff ok cmp le H) by auto. auto.
Qed.
End Clamp.

(** * Integers *)
Local Open Scope Z_scope.
Lemma arith_narrow t v : it_bits t < 32 -> - 2147483648 <= v <= 2147483647 -> it_arith t v = Ok v.
Proof.
  intros N V. unfold it_arith, promoted. rewrite (proj2 (Z.ltb_lt _ _)) by lia.
  replace (it_in (ITy true 32) v) with true; [reflexivity|]. symmetry. unfold it_in. apply andb_true_iff. rewrite !Z.leb_le.
  change (it_lo (ITy true 32)) with (- 2147483648). change (it_hi (ITy true 32)) with 2147483647. lia.
Qed.
Lemma too_wide_narrow b t r : usual t -> z_ok t (vmin r) -> z_ok t (vmax r) -> vmin r <= vmax r -> it_hi t < vmax r - vmin r -> it_bits t < 32 ->
  vr_size b t r = Ok (vmax r - vmin r - 2 ^ it_bits t) /\
  exists m, vr_mid b t r = Ok m /\ ~ (vmin r < m < vmax r) /\ (m = vmin r \/ m = vmax r -> vmin r = it_lo t /\ vmax r = it_hi t /\ m = vmax r).
Proof.
  intros U A B L F N.
  assert (S : it_signed t = true).
  { destruct (it_signed t) eqn:S; auto. pose proof (unsigned_fits t r S A B). lia. }
  assert (G : vr_size b t r = Ok (vmax r - vmin r - 2 ^ it_bits t)).
  { unfold vr_size. rewrite dassert_ok by (apply (le_iff _ _ _ (z_ordered anything)); auto; exact I). cbn [obind].
    destruct r as [x y]. cbn [vmin vmax] in *.
    rewrite arith_narrow by (auto; each_type U; cbn [it_signed it_bits] in *; try discriminate; try lia; num; lia).
    cbn [obind]. apply (f_equal Ok).
    each_type U; cbn [it_signed it_bits] in *; try discriminate; try lia; num.
    - replace (y - x - - (128)) with (y - x - 128 + 1 * 256) by lia. rewrite Z.mod_add, Z.mod_small by lia. lia.
    - replace (y - x - - (32768)) with (y - x - 32768 + 1 * 65536) by lia. rewrite Z.mod_add, Z.mod_small by lia. lia. }
  split; [exact G|]. unfold vr_mid. rewrite G. cbn [obind]. clear G. destruct r as [x y]. cbn [vmin vmax] in *.
  set (w := 2 ^ it_bits t) in *.
  assert (Q : exists q, Z.quot (y - x - w) 2 = - q /\ 2 * q <= w - (y - x) <= 2 * q + 1 /\ 0 <= q).
  { exists (Z.quot (w - (y - x)) 2). assert (0 <= w - (y - x)). { unfold w. each_type U; cbn [it_signed it_bits] in *; try discriminate; try lia; num; lia. }
    pose proof (quot_half (w - (y - x))) as [P1 P2]; [lia|]. split; [|lia].
    replace (y - x - w) with (- (w - (y - x))) by lia. rewrite Z.quot_opp_l by lia. reflexivity. }
  destruct Q as (q & Q1 & Q2 & Q3). rewrite Q1. replace (y - - q) with (y + q) by lia.
  unfold w in *. clear w.
  rewrite arith_narrow by (auto; each_type U; cbn [it_signed it_bits] in *; try discriminate; try lia; num; lia).
  cbn [obind noexcept]. eexists. split; [reflexivity|].
  each_type U; cbn [it_signed it_bits] in *; try discriminate; try lia; num.
  - destruct (Z_lt_ge_dec (y + q) 128).
    + rewrite Z.mod_small by lia. lia.
    + replace (y + q - - (128)) with (y + q - 128 + 1 * 256) by lia. rewrite Z.mod_add, Z.mod_small by lia. lia.
  - destruct (Z_lt_ge_dec (y + q) 32768).
    + rewrite Z.mod_small by lia. lia.
    + replace (y + q - - (32768)) with (y + q - 32768 + 1 * 65536) by lia. rewrite Z.mod_add, Z.mod_small by lia. lia.
Qed.

Lemma size_mid_over b t r : usual t -> z_ok t (vmin r) -> z_ok t (vmax r) -> vmin r <= vmax r -> it_hi t < vmax r - vmin r ->
  if 32 <=? it_bits t then vr_size b t r = UB /\ vr_mid b t r = UB
  else (vr_size b t r = Ok (vmax r - vmin r - 2 ^ it_bits t) /\ vmax r - vmin r < 2 ^ it_bits t) /\
    exists m, vr_mid b t r = Ok m /\ ~ (vmin r < m < vmax r) /\
      (m = vmin r \/ m = vmax r -> vmin r = it_lo t /\ vmax r = it_hi t /\ m = vmax r).
Proof.
  intros U A B L F. pose proof (size_over b t r U A B L F) as O. destruct (32 <=? it_bits t) eqn:E; auto.
  apply Z.leb_gt in E. destruct (too_wide_narrow b t r U A B L F E) as [S M]. split; auto. split; auto.
  clear - U A B. each_type U; num; lia.
Qed.
Lemma next_edge t : usual t -> int_next t (it_hi t) = if it_signed t && (32 <=? it_bits t) then UB else Ok (it_lo t).
Proof. intros U. each_type U; reflexivity. Qed.
Lemma prev_edge t : usual t -> int_prev t (it_lo t) = if it_signed t && (32 <=? it_bits t) then UB else Ok (it_hi t).
Proof. intros U. each_type U; reflexivity. Qed.
Lemma set_min_edge b t hk r : usual t -> b <> Release ->
  if it_signed t && (32 <=? it_bits t) then set_min zcmp b opened hk (int_next t) r (it_hi t) = UB
  else (before_end Z.le hk (vmax r) (it_lo t) -> set_min zcmp b opened hk (int_next t) r (it_hi t) = Ok (VR (it_hi t) (vmax r))) /\
       (~ before_end Z.le hk (vmax r) (it_lo t) -> assertion_fails b (set_min zcmp b opened hk (int_next t) r (it_hi t))).
Proof.
  intros U B. unfold set_min.
  assert (K : forall k, match b with Release => Ok tt | _ => let! n := int_next t (it_hi t) in k n end = let! n := int_next t (it_hi t) in k n) by (destruct b; congruence).
  rewrite K, next_edge by auto. destruct (it_signed t && (32 <=? it_bits t)); [reflexivity|]. cbn [obind].
  assert (E : negb (above_max zcmp hk r (it_lo t)) = true <-> before_end Z.le hk (vmax r) (it_lo t)).
  { rewrite negb_true_iff, <- not_true, (above_iff anything _ _ (z_ordered _)) by exact I.
    pose proof (end_dec anything _ _ (z_ordered _) hk r (it_lo t) I I). tauto. }
  split; intros G; apply dassert_spec; auto; [apply E; auto|]. apply not_true. rewrite E. auto.
Qed.
Lemma set_max_edge b t lk r : usual t -> b <> Release ->
  if it_signed t && (32 <=? it_bits t) then set_max zcmp b lk opened (int_prev t) r (it_lo t) = UB
  else (after_start Z.le lk (vmin r) (it_hi t) -> set_max zcmp b lk opened (int_prev t) r (it_lo t) = Ok (VR (vmin r) (it_lo t))) /\
       (~ after_start Z.le lk (vmin r) (it_hi t) -> assertion_fails b (set_max zcmp b lk opened (int_prev t) r (it_lo t))).
Proof.
  intros U B. unfold set_max.
  assert (K : forall k, match b with Release => Ok tt | _ => let! n := int_prev t (it_lo t) in k n end = let! n := int_prev t (it_lo t) in k n) by (destruct b; congruence).
  rewrite K, prev_edge by auto. destruct (it_signed t && (32 <=? it_bits t)); [reflexivity|]. cbn [obind].
  assert (E : negb (below_min zcmp lk r (it_hi t)) = true <-> after_start Z.le lk (vmin r) (it_hi t)).
  { rewrite negb_true_iff, <- not_true, (below_iff anything _ _ (z_ordered _)) by exact I.
    pose proof (start_dec anything _ _ (z_ordered _) lk r (it_hi t) I I). tauto. }
  split; intros G; apply dassert_spec; auto; [apply E; auto|]. apply not_true. rewrite E. auto.
Qed.

(** * Setters of floating-point ranges *)
Local Open Scope R_scope.
Section Setters.
Variables (prec emax : Z).
Context (Hp : Prec_gt_0 prec) (He : Prec_lt_emax prec emax).
Notation flt := (binary_float prec emax).
Lemma fin_nan (x : flt) : fin x -> not_nan prec emax x.
Proof. unfold not_nan. destruct x; easy. Qed.
Lemma ext_fin (x y : flt) : fin x -> fin y -> ext_le prec emax x y <-> B2R x <= B2R y.
Proof.
  intros X Y. unfold ext_le. split; [|intros; right; right; auto].
  intros [E|[E|(_ & _ & E)]]; auto; subst; discriminate.
Qed.
Lemma lt_fin (x y : flt) : fin x -> fin y -> lt_of (ext_le prec emax) x y <-> B2R x < B2R y.
Proof. intros X Y. unfold lt_of. rewrite !ext_fin by auto. lra. Qed.
Lemma not_above hk r v : fin (vmax r) -> fin v ->
  negb (above_max Bcompare hk r v) = true <-> before_end (ext_le prec emax) hk (vmax r) v.
Proof.
  intros M V. pose proof (above_iff _ _ _ (float_ordered prec emax) hk r v (fin_nan _ M) (fin_nan _ V)) as H.
  pose proof (end_dec _ _ _ (float_ordered prec emax) hk r v (fin_nan _ M) (fin_nan _ V)).
  destruct (above_max Bcompare hk r v); simpl; intuition congruence.
Qed.
Lemma not_below lk r v : fin (vmin r) -> fin v ->
  negb (below_min Bcompare lk r v) = true <-> after_start (ext_le prec emax) lk (vmin r) v.
Proof.
  intros M V. pose proof (below_iff _ _ _ (float_ordered prec emax) lk r v (fin_nan _ M) (fin_nan _ V)) as H.
  pose proof (start_dec _ _ _ (float_ordered prec emax) lk r v (fin_nan _ M) (fin_nan _ V)).
  destruct (below_min Bcompare lk r v); simpl; intuition congruence.
Qed.
Lemma set_min_flt b lk hk r (x : flt) : b <> Release -> fin (vmax r) -> fin x ->
  (lk = opened -> B2R x < B2R (flt_max : flt)) ->
  (holds_float lk hk (VR x (vmax r)) -> flt_set_min b lk hk r x = Ok (VR x (vmax r))) /\
  (~ holds_float lk hk (VR x (vmax r)) -> assertion_fails b (flt_set_min b lk hk r x)).
Proof.
  intros Hb M X N. unfold flt_set_min, set_min. set (n := match lk with closed => x | opened => flt_next x end).
  assert (K : match b with Release => Ok tt | _ => match lk with closed => dassert b (negb (above_max Bcompare hk r x))
               | opened => let! n := Ok (flt_next x) in dassert b (negb (above_max Bcompare hk r n)) end end
              = dassert b (negb (above_max Bcompare hk r n))) by (unfold n; destruct b, lk; reflexivity).
  rewrite K. clear K.
  assert (Fn : fin n /\ (forall y, fin y -> after_start (ext_le prec emax) lk x y -> B2R n <= B2R y) /\ after_start (ext_le prec emax) lk x n).
  { unfold n. destruct lk; cbn [after_start].
    - split; auto. split; [intros y Y; rewrite ext_fin by auto; auto|]. rewrite ext_fin by auto. lra.
    - destruct (next_least prec emax _ _ x X (N eq_refl)) as (N1 & N2 & N3). split; auto. split.
      + intros y Y. rewrite lt_fin by auto. auto.
      + rewrite lt_fin by auto. auto. }
  destruct Fn as (Fn & Ln & An).
  assert (Eq : negb (above_max Bcompare hk r n) = true <-> holds_float lk hk (VR x (vmax r))).
  { rewrite not_above by auto. split.
    - intros H. exists n. split; auto. split; cbn [vmin vmax]; auto.
    - intros (y & Y & H1 & H2). cbn [vmin vmax] in *. specialize (Ln y Y H1). unfold before_end in *. destruct hk.
      + rewrite ext_fin in * by auto. lra.
      + rewrite lt_fin in * by auto. lra. }
  split; intros H.
  - apply dassert_spec; auto. apply Eq. exact H.
  - apply dassert_spec; auto. apply not_true_iff_false. rewrite Eq. exact H.
Qed.
Lemma set_max_flt b lk hk r (x : flt) : b <> Release -> fin (vmin r) -> fin x ->
  (hk = opened -> bpow radix2 (2 - emax) < B2R x) ->
  (holds_float lk hk (VR (vmin r) x) -> flt_set_max b lk hk r x = Ok (VR (vmin r) x)) /\
  (~ holds_float lk hk (VR (vmin r) x) -> assertion_fails b (flt_set_max b lk hk r x)).
Proof.
  intros Hb M X N. unfold flt_set_max, set_max. set (n := match hk with closed => x | opened => flt_prev x end).
  assert (K : match b with Release => Ok tt | _ => match hk with closed => dassert b (negb (below_min Bcompare lk r x))
               | opened => let! n := Ok (flt_prev x) in dassert b (negb (below_min Bcompare lk r n)) end end
              = dassert b (negb (below_min Bcompare lk r n))) by (unfold n; destruct b, hk; reflexivity).
  rewrite K. clear K.
  assert (Fn : fin n /\ (forall y, fin y -> before_end (ext_le prec emax) hk x y -> B2R y <= B2R n) /\ before_end (ext_le prec emax) hk x n).
  { unfold n. destruct hk; cbn [before_end].
    - split; auto. split; [intros y Y; rewrite ext_fin by auto; auto|]. rewrite ext_fin by auto. lra.
    - destruct (prev_greatest prec emax _ _ x X (N eq_refl)) as (N1 & N2 & N3). split; auto. split.
      + intros y Y. rewrite lt_fin by auto. auto.
      + rewrite lt_fin by auto. auto. }
  destruct Fn as (Fn & Ln & An).
  assert (Eq : negb (below_min Bcompare lk r n) = true <-> holds_float lk hk (VR (vmin r) x)).
  { rewrite not_below by auto. split.
    - intros H. exists n. split; auto. split; cbn [vmin vmax]; auto.
    - intros (y & Y & H1 & H2). cbn [vmin vmax] in *. specialize (Ln y Y H2). unfold after_start in *. destruct lk.
      + rewrite ext_fin in * by auto. lra.
      + rewrite lt_fin in * by auto. lra. }
  split; intros H.
  - apply dassert_spec; auto. apply Eq. exact H.
  - apply dassert_spec; auto. apply not_true_iff_false. rewrite Eq. exact H.
Qed.

Lemma set_min_flt_edge b hk r (x : flt) : b <> Release -> fin (vmax r) -> fin x -> B2R x = B2R (flt_max : flt) ->
  (hk = closed /\ B2R (vmax r) = B2R x -> flt_set_min b opened hk r x = Ok (VR x (vmax r))) /\
  (~ (hk = closed /\ B2R (vmax r) = B2R x) -> assertion_fails b (flt_set_min b opened hk r x)).
Proof.
  intros Hb M X N. unfold flt_set_min, set_min.
  assert (K : match b with Release => Ok tt | _ => let! n := Ok (flt_next x) in dassert b (negb (above_max Bcompare hk r n)) end
              = dassert b (negb (above_max Bcompare hk r (flt_max : flt)))).
  { rewrite (next_at_max prec emax Hp He) by (auto; lra). destruct b; try congruence; reflexivity. }
  rewrite K. clear K.
  assert (Eq : negb (above_max Bcompare hk r (flt_max : flt)) = true <-> hk = closed /\ B2R (vmax r) = B2R x).
  { pose proof (max_finite prec emax Hp He) as F. pose proof (le_max prec emax Hp He _ M) as L.
    rewrite not_above by auto. unfold before_end. destruct hk.
    - rewrite ext_fin by auto. split; [intros; split; [auto|lra]|intros [_ ?]; lra].
    - rewrite lt_fin by auto. split; [lra|intros [? _]; discriminate]. }
  split; intros H; apply dassert_spec; auto; [apply Eq; auto|]. apply not_true_iff_false. rewrite Eq. auto.
Qed.
Lemma set_max_flt_edge b lk r (x : flt) : b <> Release -> fin (vmin r) -> fin x -> B2R x <= bpow radix2 (2 - emax) ->
  exists y : flt, (B2R x < bpow radix2 (2 - emax) -> next_up x y) /\ (B2R x = bpow radix2 (2 - emax) -> fin y /\ B2R y = B2R x) /\
    (after_start (ext_le prec emax) lk (vmin r) y -> flt_set_max b lk opened r x = Ok (VR (vmin r) x)) /\
    (~ after_start (ext_le prec emax) lk (vmin r) y -> assertion_fails b (flt_set_max b lk opened r x)).
Proof.
  intros Hb M X N. destruct (prev_wrong_way prec emax Hp He x X N) as [P1 P2]. exists (flt_prev x). split; auto. split; auto.
  assert (F : fin (flt_prev x)).
  { destruct (Rle_lt_or_eq_dec _ _ N) as [H|H]; [apply P1; auto|apply P2; auto]. }
  unfold flt_set_max, set_max.
  assert (K : match b with Release => Ok tt | _ => let! n := Ok (flt_prev x) in dassert b (negb (below_min Bcompare lk r n)) end
              = dassert b (negb (below_min Bcompare lk r (flt_prev x)))) by (destruct b; try congruence; reflexivity).
  rewrite K. clear K.
  pose proof (not_below lk r (flt_prev x) M F) as Eq.
  split; intros H; apply dassert_spec; auto; [apply Eq; auto|]. apply not_true_iff_false. rewrite Eq. auto.
Qed.

(** * A width that overflows *)
Lemma wide_sub (x y : flt) : fin x -> fin y -> B2R y <= B2R x -> is_finite (Bminus mode_NE x y) = false ->
  Bminus mode_NE x y = B754_infinity false.
Proof.
  intros X Y L F. pose proof (Bminus_correct prec emax Hp He mode_NE x y X Y) as C.
  destruct (Rlt_bool _ _) eqn:E in C; [destruct C as (_ & C & _); congruence|].
  destruct C as [C1 C2].
  assert (S : Bsign x = false).
  { destruct (Bsign x) eqn:S; auto. exfalso. assert (Sy : Bsign y = false) by (destruct (Bsign y); cbn in C2; congruence).
    assert (B2R x <= 0) by (destruct x as [| | |[] ? ? ?]; cbn in *; try lra; try discriminate; apply F2R_le_0; cbn; lia).
    assert (0 <= B2R y) by (destruct y as [| | |[] ? ? ?]; cbn in *; try lra; try discriminate; apply F2R_ge_0; cbn; lia).
    assert (Z0 : B2R x - B2R y = 0) by lra.
    rewrite Z0, round_0 in E by (apply valid_rnd_round_mode). rewrite Rabs_R0 in E. rewrite Rlt_bool_true in E by apply bpow_gt_0. discriminate. }
  rewrite S in C1. unfold binary_overflow, overflow_to_inf in C1. apply B2SF_inj. exact C1.
Qed.
End Setters.
Lemma mid_overflow b (r : vrange double) : fin (vmin r) -> fin (vmax r) -> B2R (vmin r) <= B2R (vmax r) ->
  is_finite (dsub (vmax r) (vmin r)) = false -> vr_mid_double b r = Ok (B754_infinity true).
Proof.
  intros A B L F. unfold vr_mid_double, vr_size_double.
  rewrite dassert_ok by (apply (le_iff _ _ _ (float_ordered 53 1024)); [apply fin_nan; auto|apply fin_nan; auto|]; right; right; auto).
  cbn [obind noexcept]. unfold dsub at 2. rewrite wide_sub by auto.
  replace (ddiv (B754_infinity false) (of_int 2)) with (B754_infinity false : double) by (apply B2SF_inj; vm_compute; reflexivity).
  destruct (vmax r); try discriminate; reflexivity.
Qed.
Lemma mid_overflow_single b (r : vrange single) : fin (vmin r) -> fin (vmax r) -> B2R (vmin r) <= B2R (vmax r) ->
  is_finite (ssub (vmax r) (vmin r)) = false -> vr_mid_float b r = Ok (B754_infinity true).
Proof.
  intros A B L F. unfold vr_mid_float, vr_size_float.
  rewrite dassert_ok by (apply (le_iff _ _ _ (float_ordered 24 128)); [apply fin_nan; auto|apply fin_nan; auto|]; right; right; auto).
  cbn [obind noexcept]. unfold ssub at 2. rewrite wide_sub by auto.
  replace (sdiv (B754_infinity false) (s_of_int 2)) with (B754_infinity false : single) by (apply B2SF_inj; vm_compute; reflexivity).
  destruct (vmax r); try discriminate; reflexivity.
Qed.
