(** Equality and emptiness of ranges. *)
From Coq Require Import Reals Lra Lia.
From Flocq Require Import Core Plus_error IEEE754.BinarySingleNaN.
From Verif Require Import Base BaseFacts Range_Model Range_Spec Range_Proofs IntRange_Proofs Float_Model Float_Spec Float_Proofs.

Section P.
Context {T : Type} (ok : T -> Prop) (cmp : T -> T -> option comparison) (le : T -> T -> Prop).
Hypothesis O : ordered ok cmp le.
Implicit Types r s t : vrange T.
Let ends_ok r : Prop := ok (vmin r) /\ ok (vmax r).

Lemma bool_iff (a b : bool) : (a = true <-> b = true) -> a = b.
Proof. destruct a, b; intros [H K]; auto; symmetry; auto. Qed.

Lemma eq_range r s : ends_ok r -> ends_ok s -> vr_eq cmp r s = true <-> same_range le r s.
Proof.
  intros [A B] [C D]. unfold vr_eq, same_range. rewrite andb_true_iff, !(eq_iff ok cmp le O) by auto. tauto.
Qed.
Lemma same_start k a b x : ok a -> ok b -> ok x -> le a b -> le b a -> after_start le k a x -> after_start le k b x.
Proof.
  intros A B X P Q. unfold after_start, lt_of. destruct k.
  - intros H. apply (trans ok cmp le O b a x); auto.
  - intros [H N]. split; [apply (trans ok cmp le O b a x); auto|]. intros W. apply N. apply (trans ok cmp le O x b a); auto.
Qed.
Lemma same_end k a b x : ok a -> ok b -> ok x -> le a b -> le b a -> before_end le k a x -> before_end le k b x.
Proof.
  intros A B X P Q. unfold before_end, lt_of. destruct k.
  - intros H. apply (trans ok cmp le O x a b); auto.
  - intros [H N]. split; [apply (trans ok cmp le O x a b); auto|]. intros W. apply N. apply (trans ok cmp le O a b x); auto.
Qed.
Lemma eq_members r s : ends_ok r -> ends_ok s -> vr_eq cmp r s = true ->
  forall lk hk x, ok x -> contains cmp lk hk r x = contains cmp lk hk s x.
Proof.
  intros R S E lk hk x X. apply eq_range in E; auto. destruct R as [A B], S as [C D], E as (E1 & E2 & E3 & E4).
  apply bool_iff. rewrite !(contains_iff ok cmp le O) by auto. unfold in_interval. split; intros [H K]; split.
  - apply same_start with (vmin r); auto.
  - apply same_end with (vmax r); auto.
  - apply same_start with (vmin s); auto.
  - apply same_end with (vmax s); auto.
Qed.
Lemma equivalence :
  (forall r, ends_ok r -> vr_eq cmp r r = true) /\
  (forall r s, ends_ok r -> ends_ok s -> vr_eq cmp r s = vr_eq cmp s r) /\
  (forall r s t, ends_ok r -> ends_ok s -> ends_ok t -> vr_eq cmp r s = true -> vr_eq cmp s t = true -> vr_eq cmp r t = true).
Proof.
  repeat split.
  - intros r H. apply eq_range; auto. destruct H. unfold same_range. repeat split; apply (refl ok cmp le O); auto.
  - intros r s H K. apply bool_iff. rewrite !eq_range by auto. unfold same_range. tauto.
  - intros r s t H K L. rewrite !eq_range by auto. unfold same_range. destruct H, K, L.
    intros (A & B & C & D) (E & F & G & I).
    repeat split.
    + apply (trans ok cmp le O _ (vmin s)); auto.
    + apply (trans ok cmp le O _ (vmin s)); auto.
    + apply (trans ok cmp le O _ (vmax s)); auto.
    + apply (trans ok cmp le O _ (vmax s)); auto.
Qed.
Lemma closed_members r s : valid ok le r -> valid ok le s ->
  (vr_eq cmp r s = true <-> forall x, ok x -> contains cmp closed closed r x = contains cmp closed closed s x).
Proof.
  intros (A & B & L) (C & D & M). split; [intros E; apply eq_members; unfold ends_ok; auto|].
  intros H. apply eq_range; unfold ends_ok; auto.
  assert (G : forall x, ok x -> in_interval le closed closed r x <-> in_interval le closed closed s x).
  { intros x X. rewrite <- !(contains_iff ok cmp le O) by auto. rewrite (H x X). tauto. }
  unfold in_interval, after_start, before_end in G.
  pose proof (G _ A) as G1. pose proof (G _ B) as G2. pose proof (G _ C) as G3. pose proof (G _ D) as G4.
  pose proof (refl ok cmp le O _ A). pose proof (refl ok cmp le O _ B).
  pose proof (refl ok cmp le O _ C). pose proof (refl ok cmp le O _ D).
  unfold same_range. tauto.
Qed.

(** Emptiness. *)
Lemma empty_iff r : valid ok le r -> vr_empty cmp r = true <-> le (vmax r) (vmin r).
Proof. intros (A & B & L). unfold vr_empty. rewrite (eq_iff ok cmp le O) by auto. tauto. Qed.
Lemma empty_half r lk hk : valid ok le r -> lk <> hk ->
  (vr_empty cmp r = true <-> forall x, ok x -> contains cmp lk hk r x = false).
Proof.
  intros V K. rewrite (empty_iff r V). destruct V as (A & B & L).
  setoid_rewrite <- not_true. split.
  - intros E x X H. apply (contains_iff ok cmp le O) in H; auto. destruct H as [H1 H2].
    destruct lk, hk; try congruence; cbn [after_start before_end lt_of] in *; unfold lt_of in *.
    + apply (proj2 H2). apply (trans ok cmp le O _ (vmin r)); auto.
    + apply (proj2 H1). apply (trans ok cmp le O _ (vmax r)); auto.
  - intros H. destruct (le_dec ok cmp le O (vmax r) (vmin r) B A) as [E|E]; auto. exfalso.
    destruct lk, hk; try congruence.
    + apply (H _ A). apply (contains_iff ok cmp le O); auto. split; cbn; [apply (refl ok cmp le O); auto|split; auto].
    + apply (H _ B). apply (contains_iff ok cmp le O); auto. split; cbn; [split; auto|apply (refl ok cmp le O); auto].
Qed.
Lemma empty_open r : valid ok le r -> vr_empty cmp r = true -> forall x, ok x -> contains cmp opened opened r x = false.
Proof.
  intros V E x X. rewrite (empty_iff r V) in E. destruct V as (A & B & L). apply not_true. intros H.
  apply (contains_iff ok cmp le O) in H; auto. destruct H as [[H1 H2] [H3 H4]].
  apply H2. apply (trans ok cmp le O _ (vmax r)); auto.
Qed.
Lemma empty_closed r : valid ok le r ->
  (exists x, ok x /\ contains cmp closed closed r x = true) /\
  (vr_empty cmp r = true <->
   forall x y, ok x -> ok y -> contains cmp closed closed r x = true -> contains cmp closed closed r y = true -> le x y /\ le y x).
Proof.
  intros V. pose proof (empty_iff r V) as EI. destruct V as (A & B & L). split.
  - exists (vmin r). split; auto. apply (contains_iff ok cmp le O); auto. split; cbn; auto. apply (refl ok cmp le O); auto.
  - rewrite EI. split.
    + intros E x y X Y HX HY. apply (contains_iff ok cmp le O) in HX, HY; auto. destruct HX as [H1 H2], HY as [H3 H4].
      cbn in H1, H2, H3, H4. split.
      * apply (trans ok cmp le O _ (vmax r)); auto. apply (trans ok cmp le O _ (vmin r)); auto.
      * apply (trans ok cmp le O _ (vmax r)); auto. apply (trans ok cmp le O _ (vmin r)); auto.
    + intros H. refine (proj2 (H (vmin r) (vmax r) A B _ _)); apply (contains_iff ok cmp le O); auto; split; cbn; auto; apply (refl ok cmp le O); auto.
Qed.
End P.

Lemma size_zero b t r : usual t -> valid (z_ok t) Z.le r -> (vr_empty zcmp r = true <-> vr_size b t r = Ok 0%Z).
Proof.
  intros U V. rewrite (empty_iff _ _ _ (z_ordered (z_ok t)) r V). destruct V as (A & B & L).
  destruct (Z.le_gt_cases (vmax r - vmin r) (it_hi t)) as [F|F].
  - rewrite size_fits by auto. split; [intros; f_equal; lia|intros E]. assert (vmax r - vmin r = 0)%Z by congruence. lia.
  - pose proof (size_over b t r U A B L F) as W. assert (0 <= it_hi t)%Z by (unfold z_ok, it_lo in *; destruct (it_signed t) eqn:S; unfold it_hi in *; rewrite ?S in *; destruct U as [<-|[<-|[<-|[<-|[]]]]]; vm_compute; congruence).
    split; [intros; lia|]. destruct (32 <=? it_bits t)%Z.
    + destruct W as [W _]. rewrite W. discriminate.
    + destruct W as (v & W & N). rewrite W. intros E. assert (v = 0)%Z by congruence. lia.
Qed.

Lemma open_none a x : contains zcmp opened opened (VR a (a + 1)%Z) x = false.
Proof.
  apply not_true. intros H. apply (contains_iff _ _ _ (z_ordered anything)) in H; try exact I.
  destruct H as [[H1 H2] [H3 H4]]. cbn [vmin vmax] in *. lia.
Qed.
Lemma open_extensional : exists r s : vrange Z, r = VR 1%Z 2%Z /\ s = VR 5%Z 6%Z /\ valid (z_ok (ITy true 32)) Z.le r /\ valid (z_ok (ITy true 32)) Z.le s /\
  (forall x, contains zcmp opened opened r x = false /\ contains zcmp opened opened s x = false) /\ vr_eq zcmp r s = false.
Proof.
  eexists; eexists; split; [reflexivity|]; split; [reflexivity|].
  split; [repeat split; vm_compute; congruence|]. split; [repeat split; vm_compute; congruence|]. split; [|reflexivity].
  intros x. split; [exact (open_none 1 x)|exact (open_none 5 x)].
Qed.
Lemma empty_wrong : exists r s : vrange Z, r = VR 3%Z 3%Z /\ s = VR 1%Z 2%Z /\ valid (z_ok (ITy true 32)) Z.le r /\ valid (z_ok (ITy true 32)) Z.le s /\
  vr_empty zcmp r = true /\ contains zcmp closed closed r 3%Z = true /\
  vr_empty zcmp s = false /\ forall x, contains zcmp opened opened s x = false.
Proof.
  eexists; eexists; split; [reflexivity|]; split; [reflexivity|].
  split; [repeat split; vm_compute; congruence|]. split; [repeat split; vm_compute; congruence|].
  split; [reflexivity|]. split; [reflexivity|]. split; [reflexivity|]. exact (open_none 1).
Qed.

Local Open Scope R_scope.
Lemma size_zero_double b (r : vrange double) : fin (vmin r) -> fin (vmax r) -> B2R (vmin r) <= B2R (vmax r) ->
  exists w, vr_size_double b r = Ok w /\ (vr_empty Bcompare r = true <-> fin w /\ B2R w = 0).
Proof.
  intros A B L. destruct r as [lo hi]. cbn [vmin vmax] in *.
  exists (dsub hi lo). split.
  - unfold vr_size_double. cbn [vmin vmax]. rewrite dassert_ok; [reflexivity|].
    apply (le_iff _ _ _ (float_ordered 53 1024)).
    + destruct lo; try discriminate A; reflexivity.
    + destruct hi; try discriminate B; reflexivity.
    + right. right. auto.
  - unfold vr_empty, c_eq. cbn [vmin vmax]. rewrite (Bcompare_correct 53 1024 lo hi A B).
    unfold dsub. pose proof (Bminus_correct 53 1024 double_prec double_emax mode_NE hi lo B A) as M.
    destruct (Rlt_bool_spec (Rabs (round radix2 (SpecFloat.fexp 53 1024) (round_mode mode_NE) (B2R hi - B2R lo))) (bpow radix2 1024)) as [OV|OV].
    + destruct M as (M1 & M2 & _). rewrite M1, M2. cbn [round_mode].
      destruct (Rcompare_spec (B2R lo) (B2R hi)) as [C|C|C].
      * split; [discriminate|]. intros [_ Z]. exfalso. revert Z. unfold Rminus.
        apply (round_plus_neq_0 radix2 (SpecFloat.fexp 53 1024) (round_mode mode_NE)).
        -- apply generic_format_B2R.
        -- apply generic_format_opp, generic_format_B2R.
        -- lra.
      * split; auto. intros _. split; auto. rewrite C. unfold Rminus. rewrite Rplus_opp_r. apply round_0. apply valid_rnd_N.
      * lra.
    + destruct M as (M1 & M2).
      assert (NF : is_finite (Bminus mode_NE hi lo) = false).
      { rewrite <- is_finite_SF_B2SF. rewrite M1. destruct (Bsign hi); reflexivity. }
      rewrite NF. destruct (Rcompare_spec (B2R lo) (B2R hi)) as [C|C|C].
      * split; [discriminate|intros [W _]; discriminate W].
      * exfalso. rewrite C in OV. unfold Rminus in OV. rewrite Rplus_opp_r, round_0, Rabs_R0 in OV by apply valid_rnd_N.
        pose proof (bpow_gt_0 radix2 1024). lra.
      * lra.
Qed.
