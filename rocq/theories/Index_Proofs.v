(** Proofs about core/index.hpp. *)
From Verif Require Import Base BaseFacts Index_Model Core_Spec.

Lemma to_size_mod : forall z, Z.of_N (to_size z) = (z mod 2 ^ 64)%Z.
Proof.
  intros z. unfold to_size, size_mod. change (Z.of_N (2 ^ 64)) with (2 ^ 64)%Z.
  pose proof (Z.mod_pos_bound z (2 ^ 64) ltac:(lia)). lia.
Qed.
Lemma sz_add_Z : forall a b, Z.of_N (sz_add a b) = ((Z.of_N a + Z.of_N b) mod 2 ^ 64)%Z.
Proof. intros. unfold sz_add, size_mod. rewrite N2Z.inj_mod, N2Z.inj_add. reflexivity. Qed.
Lemma sz_sub_Z : forall a b, Z.of_N (sz_sub a b) = ((Z.of_N a - Z.of_N b) mod 2 ^ 64)%Z.
Proof.
  intros. unfold sz_sub, size_mod. rewrite N2Z.inj_mod.
  assert (b mod 2 ^ 64 < 2 ^ 64) by (apply N.mod_lt; discriminate).
  rewrite N2Z.inj_sub, N2Z.inj_add, N2Z.inj_mod by lia.
  change (Z.of_N (2 ^ 64)) with (2 ^ 64)%Z.
  replace (Z.of_N a + 2 ^ 64 - Z.of_N b mod 2 ^ 64)%Z with ((Z.of_N a - Z.of_N b mod 2 ^ 64) + 1 * 2 ^ 64)%Z by lia.
  rewrite Z.mod_add by lia. rewrite Zminus_mod_idemp_r. reflexivity.
Qed.
Lemma add_value : forall i off, sz_add i (to_size off) = Z.to_N (exact i off mod 2 ^ 64).
Proof.
  intros. apply N2Z.inj. rewrite sz_add_Z, to_size_mod, Z2N.id by (apply Z.mod_pos_bound; lia).
  unfold exact. rewrite Zplus_mod_idemp_r. reflexivity.
Qed.
Lemma sub_value : forall i off, sz_sub i (to_size off) = Z.to_N (exact i (- off) mod 2 ^ 64).
Proof.
  intros. apply N2Z.inj. rewrite sz_sub_Z, to_size_mod, Z2N.id by (apply Z.mod_pos_bound; lia).
  unfold exact. rewrite Zminus_mod_idemp_r. reflexivity.
Qed.
Lemma to_size_small : forall z, (0 <= z < 2 ^ 64)%Z -> to_size z = Z.to_N z.
Proof. intros. apply N2Z.inj. rewrite to_size_mod, Z.mod_small, Z2N.id; lia. Qed.
Lemma max_minus : forall n, n < 2 ^ 64 -> sz_sub idx_max n = 2 ^ 64 - 1 - n.
Proof.
  intros. apply N2Z.inj. rewrite sz_sub_Z. unfold idx_max, size_mod. change (2 ^ 64 - 1) with 18446744073709551615.
  change (2 ^ 64) with 18446744073709551616 in *. change (2 ^ 64)%Z with 18446744073709551616%Z.
  rewrite Z.mod_small by lia. lia.
Qed.

(** Release builds: exact modulo 2^64. *)
Lemma release_exact : forall i off, i < 2 ^ 64 ->
  ix_add_assign Release i off = Ok (Z.to_N (exact i off mod 2 ^ 64)) /\
  ix_add Release i off = Ok (Z.to_N (exact i off mod 2 ^ 64)) /\
  ix_sub_assign Release i off = Ok (Z.to_N (exact i (- off) mod 2 ^ 64)) /\
  ix_sub Release i off = Ok (Z.to_N (exact i (- off) mod 2 ^ 64)) /\
  ix_inc Release i = Ok (Z.to_N (exact i 1 mod 2 ^ 64)) /\
  ix_dec Release i = Ok (Z.to_N (exact i (-1) mod 2 ^ 64)) /\
  ix_post_inc Release i = Ok (i, Z.to_N (exact i 1 mod 2 ^ 64)) /\
  ix_post_dec Release i = Ok (i, Z.to_N (exact i (-1) mod 2 ^ 64)).
Proof.
  intros. unfold ix_add, ix_sub, ix_add_assign, ix_sub_assign, ix_inc, ix_dec, ix_post_inc, ix_post_dec; cbn [is_debug dassert obind].
  rewrite <- add_value, <- sub_value.
  pose proof (add_value i 1) as A1. change (to_size 1) with 1 in A1.
  pose proof (sub_value i 1) as A2. change (to_size 1) with 1 in A2. change (- (1))%Z with (-1)%Z in A2.
  rewrite <- A1, <- A2. tauto.
Qed.

Lemma exact_small : forall i off, fits (exact i off) = true -> Z.to_N (exact i off mod 2 ^ 64) = Z.to_N (exact i off).
Proof. intros i off H. unfold fits in H. rewrite Z.mod_small by lia. reflexivity. Qed.

Lemma dassert_reported : forall b p {A} (k : outcome A), b <> Release ->
  (let! _ := dassert b p in k) = if p then k else match b with DebugAbort => Terminate | _ => Throw logic_error end.
Proof. intros [| |] [|] A k H; try congruence; reflexivity. Qed.

(** Debug builds: exact or reported, for every offset but the most negative. *)
Lemma debug_exact : forall b i off, b <> Release -> i < 2 ^ 64 -> offset_ok off -> (off <> - 2 ^ 63)%Z ->
  reported b (fits (exact i off)) (ix_add_assign b i off) (Z.to_N (exact i off)) /\
  reported b (fits (exact i off)) (ix_add b i off) (Z.to_N (exact i off)) /\
  reported b (fits (exact i (- off))) (ix_sub_assign b i off) (Z.to_N (exact i (- off))) /\
  reported b (fits (exact i (- off))) (ix_sub b i off) (Z.to_N (exact i (- off))).
Proof.
  intros b i off Hb Hi Ho Hm. unfold ix_add, ix_sub.
  assert (HA : reported b (fits (exact i off)) (ix_add_assign b i off) (Z.to_N (exact i off))).
  { unfold ix_add_assign. rewrite add_value.
    assert (E : (if is_debug b then if (0 <? off)%Z then dassert b (i <=? sz_sub idx_max (to_size off))
               else let! m := neg_ptrdiff off in dassert b (to_size m <=? i) else Ok tt) = dassert b (fits (exact i off))).
    { destruct b; [congruence| |]; cbn [is_debug];
      (destruct (Z.ltb_spec 0 off);
       [rewrite to_size_small, max_minus by (unfold offset_ok in Ho; lia)
       |unfold neg_ptrdiff; rewrite (proj2 (Z.eqb_neq _ _)) by exact Hm; cbn [obind]; rewrite to_size_small by (unfold offset_ok in Ho; lia)];
       unfold fits, exact, offset_ok in *; f_equal; change (2 ^ 64) with 18446744073709551616 in *; change (2 ^ 64)%Z with 18446744073709551616%Z in *; lia). }
    rewrite E, dassert_reported by exact Hb. unfold reported, failed. destruct (fits (exact i off)) eqn:F.
    - rewrite exact_small; auto.
    - destruct b; congruence. }
  assert (HS : reported b (fits (exact i (- off))) (ix_sub_assign b i off) (Z.to_N (exact i (- off)))).
  { unfold ix_sub_assign. rewrite sub_value.
    assert (E : (if is_debug b then if (0 <? off)%Z then dassert b (to_size off <=? i)
               else let! m := neg_ptrdiff off in dassert b (i <=? sz_sub idx_max (to_size m)) else Ok tt) = dassert b (fits (exact i (- off)))).
    { destruct b; [congruence| |]; cbn [is_debug];
      (destruct (Z.ltb_spec 0 off);
       [rewrite to_size_small by (unfold offset_ok in Ho; lia)
       |unfold neg_ptrdiff; rewrite (proj2 (Z.eqb_neq _ _)) by exact Hm; cbn [obind]; rewrite to_size_small, max_minus by (unfold offset_ok in Ho; lia)];
       unfold fits, exact, offset_ok in *; f_equal; change (2 ^ 64) with 18446744073709551616 in *; change (2 ^ 64)%Z with 18446744073709551616%Z in *; lia). }
    rewrite E, dassert_reported by exact Hb. unfold reported, failed. destruct (fits (exact i (- off))) eqn:F.
    - rewrite exact_small; auto.
    - destruct b; congruence. }
  tauto.
Qed.

Lemma debug_steps : forall b i, b <> Release -> i < 2 ^ 64 ->
  reported b (fits (exact i 1)) (ix_inc b i) (Z.to_N (exact i 1)) /\
  reported b (fits (exact i (-1))) (ix_dec b i) (Z.to_N (exact i (-1))) /\
  reported b (fits (exact i 1)) (ix_post_inc b i) (i, Z.to_N (exact i 1)) /\
  reported b (fits (exact i (-1))) (ix_post_dec b i) (i, Z.to_N (exact i (-1))).
Proof.
  intros b i Hb Hi. unfold ix_inc, ix_dec, ix_post_inc, ix_post_dec.
  assert (E1 : (i <? idx_max) = fits (exact i 1)).
  { unfold fits, exact, idx_max, size_mod. change (2 ^ 64) with 18446744073709551616 in *; change (2 ^ 64)%Z with 18446744073709551616%Z in *; lia. }
  assert (E2 : (0 <? i) = fits (exact i (-1))).
  { unfold fits, exact. change (2 ^ 64) with 18446744073709551616 in *; change (2 ^ 64)%Z with 18446744073709551616%Z in *; lia. }
  rewrite E1, E2. rewrite !dassert_reported by exact Hb.
  pose proof (add_value i 1) as A1. change (to_size 1) with 1 in A1.
  pose proof (sub_value i 1) as A2. change (to_size 1) with 1 in A2. change (- (1))%Z with (-1)%Z in A2.
  rewrite A1, A2. unfold reported, failed.
  destruct (fits (exact i 1)) eqn:F1; destruct (fits (exact i (-1))) eqn:F2; rewrite ?exact_small by assumption; destruct b; try congruence; repeat split.
Qed.

(** The most negative offset: undefined in debug builds. *)
Lemma debug_min : forall b i, b <> Release ->
  ix_add b i (- 2 ^ 63) = UB /\ ix_add_assign b i (- 2 ^ 63) = UB /\ ix_sub b i (- 2 ^ 63) = UB /\ ix_sub_assign b i (- 2 ^ 63) = UB.
Proof. intros [| |] i H; try congruence; repeat split. Qed.

(** Adding and then subtracting. *)
Lemma add_sub : forall b i off j, i < 2 ^ 64 -> offset_ok off -> ix_add b i off = Ok j -> ix_sub b j off = Ok i.
Proof.
  intros b i off j Hi Ho.
  assert (B : b = Release \/ b <> Release) by (destruct b; auto; right; discriminate). destruct B as [->|Hb].
  - pose proof (release_exact i off Hi) as (_ & -> & _). intros EJ. assert (EJ2 : j = Z.to_N (exact i off mod 2 ^ 64)) by congruence. clear EJ. subst j.
    assert (HB := Z.mod_pos_bound (exact i off) (2 ^ 64) ltac:(lia)).
    pose proof (release_exact (Z.to_N (exact i off mod 2 ^ 64)) off ltac:(lia)) as (_ & _ & _ & -> & _).
    f_equal. unfold exact in *. rewrite Z2N.id by lia.
    replace ((Z.of_N i + off) mod 2 ^ 64 + - off)%Z with ((Z.of_N i + off) mod 2 ^ 64 - off)%Z by lia.
    rewrite Zminus_mod_idemp_l. replace (Z.of_N i + off - off)%Z with (Z.of_N i) by lia. rewrite Z.mod_small by lia. lia.
  - destruct (Z.eq_dec off (- 2 ^ 63)) as [->|Hm]; [destruct (debug_min b i Hb) as (-> & _); discriminate|].
    pose proof (debug_exact b i off Hb Hi Ho Hm) as (_ & HA & _). unfold reported in HA. destruct (fits (exact i off)) eqn:F.
    + rewrite HA. intros EJ. assert (EJ2 : j = Z.to_N (exact i off)) by congruence. clear EJ. subst j. unfold fits in F.
      pose proof (debug_exact b (Z.to_N (exact i off)) off Hb ltac:(lia) Ho Hm) as (_ & _ & _ & HS). unfold reported in HS.
      assert (EX : exact (Z.to_N (exact i off)) (- off) = Z.of_N i) by (unfold exact in *; lia).
      rewrite EX in HS. replace (fits (Z.of_N i)) with true in HS by (unfold fits; lia). rewrite HS, N2Z.id. reflexivity.
    + unfold failed in HA. destruct b; [tauto| |]; rewrite HA; discriminate.
Qed.
