From Coq Require Import Permutation Reals Psatz.
From Flocq Require Import Core IEEE754.BinarySingleNaN.
From Verif Require Import Base BaseFacts Range_Model Range_Spec Range_Proofs MinMax_Proofs IntRange_Proofs Float_Model Float_Spec Float_Proofs Interp_Proofs FloatMid_Proofs Frac_Proofs.

Lemma membership T (ok : T -> Prop) cmp le : ordered ok cmp le -> forall lk hk r x, valid ok le r -> ok x ->
  (contains cmp lk hk r x = true <-> in_interval le lk hk r x) /\
  (below_min cmp lk r x = true <-> ~ after_start le lk (vmin r) x) /\
  (above_max cmp hk r x = true <-> ~ before_end le hk (vmax r) x).
Proof.
  intros O lk hk r x (A & B & L) X. split; [apply (contains_iff ok cmp le O); auto|].
  split; [apply (below_iff ok cmp le O); auto|apply (above_iff ok cmp le O); auto].
Qed.
Lemma overlap_laws T (ok : T -> Prop) cmp le : ordered ok cmp le -> forall b r s t, valid ok le r -> valid ok le s -> valid ok le t ->
  same_opt le (overlap cmp b r s) (overlap cmp b s r) /\
  same_opt le (overlap_left (overlap cmp b) r s t) (overlap_right (overlap cmp b) r s t) /\
  overlap cmp b r r = Ok (Some r).
Proof.
  intros O b r s t R S V. split; [eapply overlap_comm; eauto|]. split; [eapply overlap_assoc; eauto|eapply overlap_idem; eauto].
Qed.
Lemma overlap_laws_exact T (ok : T -> Prop) cmp le : ordered ok cmp le -> antisym ok le -> forall b r s t, valid ok le r -> valid ok le s -> valid ok le t ->
  overlap cmp b r s = overlap cmp b s r /\
  overlap_left (overlap cmp b) r s t = overlap_right (overlap cmp b) r s t.
Proof.
  intros O A b r s t R S V. pose proof (overlap_laws T ok cmp le O b r s t R S V) as (L1 & L2 & _).
  assert (G : forall u v q, valid ok le u -> valid ok le v -> overlap cmp b u v = Ok (Some q) -> valid ok le q).
  { intros u v q U W E. destruct (overlap_members ok cmp le O b closed closed u v U W) as (o & E' & P).
    rewrite E in E'. assert (o = Some q) by congruence. subst. apply P. }
  split; eapply same_opt_eq; eauto.
  - unfold overlap_left. intros q. destruct (overlap cmp b r s) as [[p|]| | | |] eqn:E; cbn [obind]; try discriminate. eauto.
  - unfold overlap_right. intros q. destruct (overlap cmp b s t) as [[p|]| | | |] eqn:E; cbn [obind]; try discriminate. eauto.
Qed.
Lemma min_max_exact T (ok : T -> Prop) cmp le : ordered ok cmp le -> antisym ok le -> forall x xs y ys,
  ok x -> Forall ok xs -> Permutation (x :: xs) (y :: ys) -> v_min cmp x xs = v_min cmp y ys /\ v_max cmp x xs = v_max cmp y ys.
Proof.
  intros O A x xs y ys X H P. destruct (min_max_perm ok cmp le O x xs y ys X H P) as [[M1 M2] [M3 M4]].
  assert (G : Forall ok (y :: ys)).
  { apply Forall_forall. intros z Z. assert (F : Forall ok (x :: xs)) by auto. rewrite Forall_forall in F. apply F.
    eapply Permutation_in; [symmetry; exact P|exact Z]. }
  inversion G as [|? ? Y YS]; subst.
  split; apply A; auto; first [apply (v_min_least ok cmp le O)|apply (v_max_greatest ok cmp le O)]; auto.
Qed.
Lemma minmax_all T (ok : T -> Prop) cmp le : ordered ok cmp le -> forall x xs, ok x -> Forall ok xs ->
  first_least le (v_min cmp x xs) (x :: xs) /\ first_greatest le (v_max cmp x xs) (x :: xs) /\
  v_minmax cmp x xs = (v_min cmp x xs, v_max cmp x xs) /\
  (forall y, xs = [y] -> least le (fst (minmax2 cmp x y)) (x :: xs) /\ greatest le (snd (minmax2 cmp x y)) (x :: xs)).
Proof.
  intros O x xs X H. split; [apply (v_min_first ok cmp le O); auto|]. split; [apply (v_max_first ok cmp le O); auto|].
  split; [reflexivity|]. intros y ->. inversion H; subst. apply (minmax2_spec ok cmp le O); auto.
Qed.
Lemma int_clamp_nearest t r x : valid (z_ok t) Z.le r -> z_ok t x ->
  exists y, clamp zcmp r x = Ok y /\ z_ok t y /\ (vmin r <= y <= vmax r)%Z /\
    forall z, (vmin r <= z <= vmax r)%Z -> (Z.abs (x - y) <= Z.abs (x - z))%Z.
Proof.
  intros V X. destruct (clamp_closed (z_ok t) zcmp Z.le (z_ordered _) r x V X) as (y & E & Y & I & _ & N & _).
  exists y. split; auto. split; auto. split; [apply I|]. intros z Z.
  destruct V as (A & B & L). assert (z_ok t z) by (unfold z_ok in *; lia).
  destruct (N z H) as [K|K]; [split; cbn [after_start before_end]; lia| |]; lia.
Qed.
Lemma clamp_laws T (ok : T -> Prop) cmp le : ordered ok cmp le -> forall r, valid ok le r ->
  (forall x, ok x -> exists y, clamp cmp r x = Ok y /\ ok y /\ in_interval le closed closed r y /\
    (in_interval le closed closed r x -> y = x) /\
    (forall z, ok z -> in_interval le closed closed r z -> on_the_way le x y z) /\
    clamp cmp r y = Ok y) /\
  (forall x y u v, ok x -> ok y -> le x y -> clamp cmp r x = Ok u -> clamp cmp r y = Ok v -> le u v).
Proof.
  intros O r V. split; [intros; apply (clamp_closed ok cmp le O); auto|]. intros x y u v X Y H E F. exact (clamp_mono ok cmp le O r x y u v V X Y H E F).
Qed.
Lemma size_mid b t r : usual t -> z_ok t (vmin r) -> z_ok t (vmax r) -> (vmin r <= vmax r)%Z -> (vmax r - vmin r <= it_hi t)%Z ->
  vr_size b t r = Ok (vmax r - vmin r)%Z /\
  exists m, vr_mid b t r = Ok m /\ (vmin r <= m <= vmax r)%Z /\ half_way (vmin r) (vmax r) m.
Proof. intros. split; [apply size_fits|apply mid_fits]; auto. Qed.
Lemma size_mid_unsigned b bits r : usual (ITy false bits) -> z_ok (ITy false bits) (vmin r) -> z_ok (ITy false bits) (vmax r) -> (vmin r <= vmax r)%Z ->
  vr_size b (ITy false bits) r = Ok (vmax r - vmin r)%Z /\
  exists m, vr_mid b (ITy false bits) r = Ok m /\ (vmin r <= m <= vmax r)%Z /\ half_way (vmin r) (vmax r) m.
Proof. intros. apply size_mid; auto. apply unsigned_fits; auto. Qed.
Lemma int_neighbours t v : usual t -> z_ok t v ->
  ((v < it_hi t)%Z -> int_next t v = Ok (v + 1)%Z) /\ ((it_lo t < v)%Z -> int_prev t v = Ok (v - 1)%Z).
Proof. intros. split; [apply next_fits|apply prev_fits]; auto. Qed.
Lemma interpolate_int t mn mx : usual t -> z_ok t mn -> z_ok t mx -> (mn <= mx)%Z -> (mx - mn <= it_hi t)%Z -> (mx - mn <= 2 ^ 53)%Z ->
  (forall f : double, fin f -> (0 <= B2R f <= 1)%R ->
     exists r, i_interpolate t f mn mx = Ok r /\ (mn <= r <= mx)%Z /\
       r = (mn + Ztrunc (rnd (B2R f * IZR (mx - mn))))%Z /\
       (Zfloor (B2R f * IZR (mx - mn)) <= r - mn <= Zfloor (B2R f * IZR (mx - mn)) + 1)%Z) /\
  (forall f : double, fin f -> (B2R f = 0 -> i_interpolate t f mn mx = Ok mn)%R /\ (B2R f = 1 -> i_interpolate t f mn mx = Ok mx)%R) /\
  (forall f g : double, fin f -> fin g -> (0 <= B2R f)%R -> (B2R f <= B2R g)%R -> (B2R g <= 1)%R ->
     exists r s, i_interpolate t f mn mx = Ok r /\ i_interpolate t g mn mx = Ok s /\ (r <= s)%Z).
Proof.
  intros U A B L F S. split; [|split].
  - intros f Ff H. destruct (i_interpolate_inside t mn mx U A B L F S f Ff H) as (r & E & I & J).
    exists r. split; auto. split; auto. split; auto. rewrite i_interpolate_value in E by auto. congruence.
  - intros. apply i_interpolate_ends; auto.
  - intros. apply i_interpolate_mono; auto.
Qed.
Lemma fraction_int t mn mx : usual t -> z_ok t mn -> z_ok t mx -> (mn < mx)%Z -> (mx - mn <= it_hi t)%Z -> (mx - mn <= 2 ^ 53)%Z ->
  (exists f, i_fraction t mn mn mx = Ok f /\ fin f /\ B2R f = 0%R) /\
  (exists f, i_fraction t mx mn mx = Ok f /\ fin f /\ B2R f = 1%R) /\
  (forall u v, (mn <= u)%Z -> (u <= v)%Z -> (v <= mx)%Z ->
     exists f g, i_fraction t u mn mx = Ok f /\ i_fraction t v mn mx = Ok g /\ (0 <= B2R f <= B2R g)%R /\ (B2R g <= 1)%R) /\
  ((mx - mn <= 2 ^ 52)%Z -> forall v, (mn <= v <= mx)%Z ->
     exists f r, i_fraction t v mn mx = Ok f /\ i_interpolate t f mn mx = Ok r /\ (r = v \/ r = v - 1)%Z).
Proof.
  intros U A B L F S. destruct (fraction_ends t mn mx U A B L F S). split; auto. split; auto. split.
  - intros. apply fraction_mono; auto.
  - intros. apply round_trip; auto; lia.
Qed.
Lemma real_laws : forall f g a b v : R, (a <> b ->
    r_fraction (r_interpolate f a b) a b = f /\ r_interpolate (r_fraction v a b) a b = v) /\
  r_interpolate 0 a b = a /\ r_interpolate 1 a b = b /\
  (f <= g -> a <= b -> r_interpolate f a b <= r_interpolate g a b)%R /\
  (0 <= f <= 1 -> a <= b -> a <= r_interpolate f a b <= b)%R.
Proof.
  intros. split; [intros N; destruct (r_laws f a b N) as (? & ? & ? & ?); auto|].
  split; [unfold r_interpolate; ring|]. split; [unfold r_interpolate; ring|]. split; [apply r_mono|apply r_inside].
Qed.
Lemma bounded_clamp T (ok : T -> Prop) cmp le : ordered ok cmp le -> forall x r, valid ok le r -> ok x ->
  exists y, bv_clamp cmp (x, r) = Ok (y, r) /\ is_in_bounds cmp closed closed (y, r) = true /\
    (is_in_bounds cmp closed closed (x, r) = true -> y = x).
Proof.
  intros O x r V X. destruct (clamp_closed ok cmp le O r x V X) as (y & E & Y & I & K & _).
  exists y. unfold bv_clamp, is_in_bounds. cbn [fst snd]. rewrite E. split; [reflexivity|].
  destruct V as (A & B & L). split.
  - apply (contains_iff ok cmp le O); auto.
  - intros H. apply K. apply (contains_iff ok cmp le O) in H; auto.
Qed.

Lemma open_disjoint : forall x, ~ (in_interval Z.le opened opened (VR 0%Z 1%Z) x /\ in_interval Z.le opened opened (VR 1%Z 2%Z) x).
Proof. unfold in_interval, after_start, before_end, lt_of. cbn [vmin vmax]. lia. Qed.

(** interpolate and fraction as members of a range. *)
Lemma members_int t r : usual t -> z_ok t (vmin r) -> z_ok t (vmax r) -> (vmin r < vmax r)%Z -> (vmax r - vmin r <= it_hi t)%Z -> (vmax r - vmin r <= 2 ^ 53)%Z ->
  (forall f : double, fin f -> (0 <= B2R f < 1)%R -> vr_interpolate_int t r f = Ok (vmin r)) /\
  (forall f : double, fin f -> B2R f = 1%R -> vr_interpolate_int t r f = Ok (vmax r)) /\
  (exists f, vr_fraction_int t r (vmin r) = Ok f /\ fin f /\ B2R f = 0%R) /\
  (exists f, vr_fraction_int t r (vmax r) = Ok f /\ fin f /\ B2R f = 1%R) /\
  (forall u v, (vmin r <= u)%Z -> (u <= v)%Z -> (v <= vmax r)%Z ->
     exists f g, vr_fraction_int t r u = Ok f /\ vr_fraction_int t r v = Ok g /\ (0 <= B2R f <= B2R g)%R /\ (B2R g <= 1)%R).
Proof.
  intros U A B L F W. destruct r as [mn mx]. cbn [vmin vmax] in *.
  assert (L' : (mn <= mx)%Z) by lia.
  destruct (interpolate_int t mn mx U A B L' F W) as (_ & I & _).
  destruct (fraction_int t mn mx U A B L F W) as (F1 & F2 & F3 & _).
  assert (H1 : (1 <= it_hi t)%Z) by lia.
  assert (H0 : (it_lo t <= 0)%Z) by (unfold it_lo; destruct (it_signed t); [assert (0 <= 2 ^ (it_bits t - 1))%Z by (apply Z.pow_nonneg; lia); lia|lia]).
  unfold vr_interpolate_int, vr_fraction_int. cbn [vmin vmax].
  split; [|split; [|split; [exact F1|split; [exact F2|exact F3]]]].
  - intros f Ff [P Q]. unfold to_int. rewrite Ff, Btrunc_Ztrunc.
    assert (T : Ztrunc (B2R f) = 0%Z) by (rewrite Ztrunc_floor by auto; apply Zfloor_imp; cbn; lra).
    rewrite T. unfold it_in. rewrite (proj2 (Z.leb_le _ _)) by lia. rewrite (proj2 (Z.leb_le _ _)) by lia. cbn [andb obind].
    apply (proj1 (I (of_int 0) eq_refl)). reflexivity.
  - intros f Ff E. unfold to_int. rewrite Ff, Btrunc_Ztrunc, E, Ztrunc_IZR.
    unfold it_in. rewrite (proj2 (Z.leb_le _ _)) by lia. rewrite (proj2 (Z.leb_le _ _)) by lia. cbn [andb obind].
    apply (proj2 (I (of_int 1) eq_refl)). apply (of_int_exact 1). lia.
Qed.
Lemma members_double (r : vrange double) : fin (vmin r) -> fin (dsub (vmax r) (vmin r)) -> (B2R (vmin r) < B2R (vmax r))%R ->
  (forall f : double, fin f -> B2R f = 0%R -> fin (vr_interpolate_double r f) /\ B2R (vr_interpolate_double r f) = B2R (vmin r)) /\
  (forall f w : double, fin w -> B2R w = (B2R (vmax r) - B2R (vmin r))%R -> fin f -> (0 <= B2R f <= 1)%R ->
     fin (vr_interpolate_double r f) /\ (B2R (vmin r) <= B2R (vr_interpolate_double r f) <= B2R (vmax r))%R /\
     (B2R f = 1%R -> B2R (vr_interpolate_double r f) = B2R (vmax r))) /\
  (fin (vr_fraction_double r (vmin r)) /\ B2R (vr_fraction_double r (vmin r)) = 0%R) /\
  (fin (vr_fraction_double r (vmax r)) /\ B2R (vr_fraction_double r (vmax r)) = 1%R) /\
  (forall u v : double, fin u -> fin v -> (B2R (vmin r) <= B2R u)%R -> (B2R u <= B2R v)%R -> (B2R v <= B2R (vmax r))%R ->
     fin (vr_fraction_double r u) /\ fin (vr_fraction_double r v) /\
     (0 <= B2R (vr_fraction_double r u) <= B2R (vr_fraction_double r v))%R /\ (B2R (vr_fraction_double r v) <= 1)%R).
Proof.
  intros A D L. destruct r as [mn mx]. unfold vr_interpolate_double, vr_fraction_double. cbn [vmin vmax] in *.
  destruct (fraction_double mn mx A D L) as (F1 & F2 & F3 & _).
  split; [|split; [|split; [exact F1|split; [exact F2|exact F3]]]].
  - intros f Ff Z. apply d_interpolate_0; auto.
  - intros f w Fw W Ff H. assert (X : fin mx) by (apply (dsub_finite _ _ D)).
    destruct (interpolate_exact_width mn mx w f) as (P & Q & _ & R); auto. lra.
Qed.
