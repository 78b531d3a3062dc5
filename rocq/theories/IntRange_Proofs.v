From Verif Require Import Base BaseFacts Range_Model Range_Spec Range_Proofs.
Local Open Scope Z_scope.

Lemma z_ordered (ok : Z -> Prop) : ordered ok zcmp Z.le.
Proof.
  split; [split; intros; lia|]. intros x y _ _. unfold zcmp. destruct (Z.compare_spec x y); lia.
Qed.
Lemma z_antisym (ok : Z -> Prop) : antisym ok Z.le.
Proof. intros x y _ _ ? ?. lia. Qed.

Ltac each_type U :=
  unfold usual in U; cbn [In] in U;
  repeat (match goal with t : ity |- _ => destruct t as [[] ?bits] end); cbn [it_bits] in U;
  repeat destruct U as [U|U]; try contradiction; subst.
Ltac num := unfold it_conv, it_in, promoted, z_ok in *; unfold it_lo, it_hi in *; cbn [it_signed it_bits] in *;
  change (2 ^ (8 - 1)) with 128 in *; change (2 ^ (16 - 1)) with 32768 in *;
  change (2 ^ (32 - 1)) with 2147483648 in *; change (2 ^ (64 - 1)) with 9223372036854775808 in *;
  change (2 ^ 8) with 256 in *; change (2 ^ 16) with 65536 in *; change (2 ^ 32) with 4294967296 in *;
  change (2 ^ 64) with 18446744073709551616 in *;
  change (8 <? 32) with true in *; change (16 <? 32) with true in *; change (32 <? 32) with false in *; change (64 <? 32) with false in *;
  cbn [it_signed it_bits] in *.

(** Arithmetic on a type: exact if the result is a value of the promoted type. *)
Lemma conv_id t v : usual t -> z_ok t v -> it_conv t v = v.
Proof.
  intros U V. each_type U; num. all: rewrite Z.mod_small; lia.
Qed.
Lemma arith_fits t v : usual t -> z_ok t v -> it_arith t v = Ok v.
Proof.
  intros U V. unfold it_arith.
  replace (it_in (promoted t) v) with true; [reflexivity|].
  symmetry. unfold it_in. apply andb_true_iff. rewrite !Z.leb_le. each_type U; num; try lia.
Qed.
Lemma arith_over t v : usual t -> it_signed t = true -> 32 <= it_bits t -> ~ z_ok t v -> it_arith t v = UB.
Proof.
  intros U S B V. unfold it_arith.
  assert (P : promoted t = t) by (unfold promoted; rewrite (proj2 (Z.ltb_ge _ _)) by lia; reflexivity).
  rewrite P, S. replace (it_in t v) with false; [reflexivity|]. symmetry. apply not_true_iff_false. unfold it_in.
  rewrite andb_true_iff, !Z.leb_le. unfold z_ok in V. lia.
Qed.

(** C71 *)
Lemma size_fits b t r : usual t -> z_ok t (vmin r) -> z_ok t (vmax r) -> vmin r <= vmax r -> vmax r - vmin r <= it_hi t ->
  vr_size b t r = Ok (vmax r - vmin r).
Proof.
  intros U A B L F. unfold vr_size. rewrite dassert_ok by (apply (le_iff _ _ _ (z_ordered anything)); auto; exact I).
  cbn [obind]. assert (z_ok t (vmax r - vmin r)).
  { unfold z_ok in *. split; [|lia]. unfold it_lo. destruct (it_signed t); try lia. }
  rewrite arith_fits by auto. cbn [obind]. rewrite conv_id by auto. reflexivity.
Qed.
Lemma quot_half d : 0 <= d -> 0 <= Z.quot d 2 /\ 2 * Z.quot d 2 <= d <= 2 * Z.quot d 2 + 1.
Proof. intros D. rewrite Z.quot_div_nonneg by lia. pose proof (Z.div_mod d 2). pose proof (Z.mod_pos_bound d 2). lia. Qed.
Lemma mid_fits b t r : usual t -> z_ok t (vmin r) -> z_ok t (vmax r) -> vmin r <= vmax r -> vmax r - vmin r <= it_hi t ->
  exists m, vr_mid b t r = Ok m /\ vmin r <= m <= vmax r /\ half_way (vmin r) (vmax r) m.
Proof.
  intros U A B L F. unfold vr_mid. rewrite size_fits by auto. cbn [obind].
  destruct (quot_half (vmax r - vmin r)) as [Q0 Q]; [lia|].
  assert (z_ok t (vmax r - Z.quot (vmax r - vmin r) 2)) by (unfold z_ok in *; lia).
  rewrite arith_fits by auto. cbn [obind noexcept]. rewrite conv_id by auto. eexists. split; [reflexivity|].
  unfold half_way. lia.
Qed.
Lemma unsigned_fits t r : it_signed t = false -> z_ok t (vmin r) -> z_ok t (vmax r) -> vmax r - vmin r <= it_hi t.
Proof. unfold z_ok, it_lo. intros -> A B. lia. Qed.
Lemma size_over b t r : usual t -> z_ok t (vmin r) -> z_ok t (vmax r) -> vmin r <= vmax r -> it_hi t < vmax r - vmin r ->
  if 32 <=? it_bits t then vr_size b t r = UB /\ vr_mid b t r = UB
  else exists v, vr_size b t r = Ok v /\ v < 0.
Proof.
  intros U A B L F.
  assert (S : it_signed t = true).
  { destruct (it_signed t) eqn:S; auto. pose proof (unsigned_fits t r S A B). lia. }
  destruct (32 <=? it_bits t) eqn:E.
  - apply Z.leb_le in E. assert (G : vr_size b t r = UB).
    { unfold vr_size. rewrite dassert_ok by (apply (le_iff _ _ _ (z_ordered anything)); auto; exact I). cbn [obind].
      rewrite arith_over; auto. unfold z_ok. lia. }
    split; auto. unfold vr_mid. rewrite G. reflexivity.
  - apply Z.leb_gt in E. unfold vr_size. rewrite dassert_ok by (apply (le_iff _ _ _ (z_ordered anything)); auto; exact I). cbn [obind].
    unfold it_arith. assert (P : promoted t = ITy true 32) by (unfold promoted; rewrite (proj2 (Z.ltb_lt _ _)) by lia; reflexivity).
    rewrite P. destruct r as [x y]. cbn [vmin vmax] in *.
    assert (G : it_in (ITy true 32) (y - x) = true /\ it_conv t (y - x) < 0).
    { unfold it_in. rewrite andb_true_iff, !Z.leb_le. each_type U; cbn [it_signed it_bits] in *; try discriminate; try lia; num.
      - split; [lia|]. replace (y - x - - (128)) with (y - x - 128 + 1 * 256) by lia. rewrite Z.mod_add, Z.mod_small by lia. lia.
      - split; [lia|]. replace (y - x - - (32768)) with (y - x - 32768 + 1 * 65536) by lia. rewrite Z.mod_add, Z.mod_small by lia. lia. }
    destruct G as [G1 G2]. rewrite G1. eexists. split; [reflexivity|auto].
Qed.

(** C73, integers *)
Lemma next_fits t v : usual t -> z_ok t v -> v < it_hi t -> int_next t v = Ok (v + 1).
Proof.
  intros U V L. unfold int_next. rewrite arith_fits by (auto; unfold z_ok in *; lia). cbn [obind].
  rewrite conv_id by (auto; unfold z_ok in *; lia). reflexivity.
Qed.
Lemma prev_fits t v : usual t -> z_ok t v -> it_lo t < v -> int_prev t v = Ok (v - 1).
Proof.
  intros U V L. unfold int_prev. rewrite arith_fits by (auto; unfold z_ok in *; lia). cbn [obind].
  rewrite conv_id by (auto; unfold z_ok in *; lia). reflexivity.
Qed.

(** C79, integers: the assertion accepts exactly the ranges that contain a value *)
Lemma dassert_spec b p A (k : outcome A) : b <> Release ->
  (p = true -> (let! _ := dassert b p in k) = k) /\ (p = false -> assertion_fails b (let! _ := dassert b p in k)).
Proof. intros B. destruct b, p; try congruence; split; try discriminate; reflexivity. Qed.
Lemma inhabited_iff lk hk a b : inhabited lk hk (VR a b) <->
  (match lk with closed => a | opened => a + 1 end <= match hk with closed => b | opened => b - 1 end).
Proof.
  unfold inhabited, in_interval, after_start, before_end, lt_of. cbn [vmin vmax]. split.
  - intros (x & P & Q). destruct lk, hk; lia.
  - intros H. exists (match lk with closed => a | opened => a + 1 end). destruct lk, hk; lia.
Qed.
Lemma set_min_int b t lk hk r x : usual t -> z_ok t x -> (lk = opened -> x < it_hi t) -> b <> Release ->
  (inhabited lk hk (VR x (vmax r)) -> set_min zcmp b lk hk (int_next t) r x = Ok (VR x (vmax r))) /\
  (~ inhabited lk hk (VR x (vmax r)) -> assertion_fails b (set_min zcmp b lk hk (int_next t) r x)).
Proof.
  intros U X N B. rewrite inhabited_iff. unfold set_min.
  assert (AB : forall v, negb (above_max zcmp hk r v) = (v <=? match hk with closed => vmax r | opened => vmax r - 1 end)).
  { intros v. apply eq_true_iff_eq. rewrite negb_true_iff, <- not_true, (above_iff anything _ _ (z_ordered _)) by exact I.
    rewrite Z.leb_le. unfold before_end, lt_of. destruct hk; lia. }
  assert (K : match b with Release => Ok tt | _ => match lk with closed => dassert b (negb (above_max zcmp hk r x))
               | opened => let! n := int_next t x in dassert b (negb (above_max zcmp hk r n)) end end =
          dassert b (match lk with closed => x | opened => x + 1 end <=? match hk with closed => vmax r | opened => vmax r - 1 end)).
  { destruct lk.
    - rewrite AB. destruct b; congruence.
    - rewrite next_fits by auto. cbn [obind]. rewrite AB. destruct b; congruence. }
  rewrite K. split; intros H.
  - apply dassert_spec; auto. apply Z.leb_le. exact H.
  - apply dassert_spec; auto. apply Z.leb_gt. lia.
Qed.
Lemma set_max_int b t lk hk r x : usual t -> z_ok t x -> (hk = opened -> it_lo t < x) -> b <> Release ->
  (inhabited lk hk (VR (vmin r) x) -> set_max zcmp b lk hk (int_prev t) r x = Ok (VR (vmin r) x)) /\
  (~ inhabited lk hk (VR (vmin r) x) -> assertion_fails b (set_max zcmp b lk hk (int_prev t) r x)).
Proof.
  intros U X N B. rewrite inhabited_iff. unfold set_max.
  assert (AB : forall v, negb (below_min zcmp lk r v) = (match lk with closed => vmin r | opened => vmin r + 1 end <=? v)).
  { intros v. apply eq_true_iff_eq. rewrite negb_true_iff, <- not_true, (below_iff anything _ _ (z_ordered _)) by exact I.
    rewrite Z.leb_le. unfold after_start, lt_of. destruct lk; lia. }
  assert (K : match b with Release => Ok tt | _ => match hk with closed => dassert b (negb (below_min zcmp lk r x))
               | opened => let! n := int_prev t x in dassert b (negb (below_min zcmp lk r n)) end end =
          dassert b (match lk with closed => vmin r | opened => vmin r + 1 end <=? match hk with closed => x | opened => x - 1 end)).
  { destruct hk.
    - rewrite AB. destruct b; congruence.
    - rewrite prev_fits by auto. cbn [obind]. rewrite AB. destruct b; congruence. }
  rewrite K. split; intros H.
  - apply dassert_spec; auto. apply Z.leb_le. exact H.
  - apply dassert_spec; auto. apply Z.leb_gt. lia.
Qed.

(** C80 *)
Lemma default_bounds_int b t v : usual t -> z_ok t v ->
  exists r, int_default_bounds b t = Ok r /\ is_in_bounds zcmp closed closed (v, r) = true.
Proof.
  intros U V. exists (VR (it_lo t) (it_hi t)). unfold int_default_bounds, vr_make.
  rewrite dassert_ok by (apply (le_iff _ _ _ (z_ordered anything)); try exact I; unfold z_ok in V; lia).
  split; [reflexivity|]. unfold is_in_bounds. cbn [fst snd]. apply (contains_iff anything _ _ (z_ordered _)); try exact I.
  unfold z_ok in V. split; cbn [after_start before_end vmin vmax]; lia.
Qed.
