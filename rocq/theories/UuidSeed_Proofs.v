(** The UUIDs of a thread determine the seed of its engine. *)
From Coq Require Import List NArith Lia. Import ListNotations.
From Verif Require Import Base BaseFacts Io_Model Uuid_Model UuidGen_Model UuidGen_Spec UuidGen_Proofs UuidBits_Proofs.
Local Open Scope N_scope.

(** ** Linear functions of words *)

Definition lin (F : N -> N) : Prop := forall a b, F (N.lxor a b) = N.lxor (F a) (F b).

Lemma lin_0 F : lin F -> F 0 = 0.
Proof. intros H. specialize (H 0 0). rewrite N.lxor_nilpotent in H. rewrite H at 1. apply N.lxor_nilpotent. Qed.
Lemma lin_id : lin (fun x => x).
Proof. intros a b. reflexivity. Qed.
Lemma lin_comp F G : lin F -> lin G -> lin (fun x => F (G x)).
Proof. intros HF HG a b. now rewrite HG, HF. Qed.
Lemma lin_xor F G : lin F -> lin G -> lin (fun x => N.lxor (F x) (G x)).
Proof. intros HF HG a b. rewrite HF, HG, !N.lxor_assoc. f_equal. rewrite <- !N.lxor_assoc. f_equal. apply N.lxor_comm. Qed.
Lemma lin_land c : lin (fun x => N.land x c).
Proof.
  intros a b. apply N.bits_inj. intros i. rewrite N.lxor_spec, !N.land_spec, N.lxor_spec.
  destruct (N.testbit a i), (N.testbit b i), (N.testbit c i); reflexivity.
Qed.
Lemma lin_shiftr n : lin (fun x => N.shiftr x n).
Proof. intros a b. apply N.shiftr_lxor. Qed.
Lemma lin_shiftl n : lin (fun x => N.shiftl x n).
Proof. intros a b. apply N.shiftl_lxor. Qed.
Lemma lin_mod n : lin (fun x => x mod 2 ^ n).
Proof. intros a b. rewrite <- !N.land_ones. apply lin_land. Qed.

Lemma lin_ext F G n : lin F -> lin G -> (forall i, i < n -> F (2 ^ i) = G (2 ^ i)) -> forall x, x < 2 ^ n -> F x = G x.
Proof.
  intros HF HG. revert n. apply (N.peano_ind (fun n => (forall i, i < n -> F (2 ^ i) = G (2 ^ i)) -> forall x, x < 2 ^ n -> F x = G x)).
  - intros _ x H. assert (x = 0) as -> by (change (2 ^ 0) with 1 in H; lia). now rewrite !lin_0.
  - intros n IH H x Hx.
    destruct (N.lt_ge_cases x (2 ^ n)) as [L|L]; [apply IH; [intros i Hi; apply H; lia|exact L]|].
    assert (R : x - 2 ^ n < 2 ^ n) by (rewrite N.pow_succ_r' in Hx; lia).
    assert (E : x = N.lxor (x - 2 ^ n) (2 ^ n)).
    { rewrite <- N.add_nocarry_lxor; [lia|]. apply N.bits_inj. intros i. rewrite N.bits_0, N.land_spec.
      destruct (N.eq_dec n i) as [->|NE]; [|rewrite N.pow2_bits_false by congruence; apply Bool.andb_false_r].
      destruct (N.eq_dec (x - 2 ^ i) 0) as [->|NZ]; [rewrite N.bits_0; reflexivity|].
      rewrite N.bits_above_log2; [reflexivity|]. apply N.log2_lt_pow2; [lia|exact R]. }
    rewrite E, HF, HG. f_equal; [|apply H; lia]. apply IH; [intros i Hi; apply H; lia|exact R].
Qed.

(** A check of 64 words. *)
Definition basis : list N := map N.of_nat (seq 0 64).
Lemma basis_check (P : N -> bool) : forallb P basis = true -> forall i, i < 64 -> P i = true.
Proof.
  intros H i Hi. rewrite forallb_forall in H. apply H. unfold basis. apply in_map_iff. exists (N.to_nat i).
  split; [lia|]. apply in_seq. lia.
Qed.

Lemma lt_xor a b : a < 2 ^ 64 -> b < 2 ^ 64 -> N.lxor a b < 2 ^ 64.
Proof.
  intros Ha Hb. destruct (N.eq_dec (N.lxor a b) 0) as [->|NZ]; [reflexivity|].
  apply N.log2_lt_pow2; [lia|]. eapply N.le_lt_trans; [apply N.log2_lxor|].
  apply N.max_lub_lt.
  - destruct (N.eq_dec a 0) as [->|]; [reflexivity|]. apply N.log2_lt_pow2; [lia|assumption].
  - destruct (N.eq_dec b 0) as [->|]; [reflexivity|]. apply N.log2_lt_pow2; [lia|assumption].
Qed.

(** ** Tempering *)

Lemma lin_temper : lin mt_temper.
Proof.
  unfold mt_temper. 
  apply (lin_comp (fun z => N.lxor z (N.shiftr z 43))
    (fun x => let z := N.lxor x (N.land (N.shiftr x 29) 0x5555555555555555) in
              let z := N.lxor z (N.land (N.shiftl z 17 mod 2 ^ 64) 0x71d67fffeda60000) in
              N.lxor z (N.land (N.shiftl z 37 mod 2 ^ 64) 0xfff7eee000000000))).
  { apply lin_xor; [apply lin_id|apply lin_shiftr]. }
  apply (lin_comp (fun z => N.lxor z (N.land (N.shiftl z 37 mod 2 ^ 64) 0xfff7eee000000000))
    (fun x => let z := N.lxor x (N.land (N.shiftr x 29) 0x5555555555555555) in
              N.lxor z (N.land (N.shiftl z 17 mod 2 ^ 64) 0x71d67fffeda60000))).
  { apply lin_xor; [apply lin_id|]. apply (lin_comp (fun x => N.land x _)); [apply lin_land|].
    apply (lin_comp (fun x => x mod _)); [apply lin_mod|apply lin_shiftl]. }
  apply (lin_comp (fun z => N.lxor z (N.land (N.shiftl z 17 mod 2 ^ 64) 0x71d67fffeda60000))
    (fun x => N.lxor x (N.land (N.shiftr x 29) 0x5555555555555555))).
  { apply lin_xor; [apply lin_id|]. apply (lin_comp (fun x => N.land x _)); [apply lin_land|].
    apply (lin_comp (fun x => x mod _)); [apply lin_mod|apply lin_shiftl]. }
  apply lin_xor; [apply lin_id|]. apply (lin_comp (fun x => N.land x _)); [apply lin_land|apply lin_shiftr].
Qed.

(** The inverse of tempering. *)
Definition g1 (x : N) : N := N.land (N.shiftr x 29) 0x5555555555555555.
Definition g2 (x : N) : N := N.land (N.shiftl x 17 mod 2 ^ 64) 0x71d67fffeda60000.
Definition g3 (x : N) : N := N.land (N.shiftl x 37 mod 2 ^ 64) 0xfff7eee000000000.
Definition u4 (z : N) : N := N.lxor z (N.shiftr z 43).
Definition u3 (z : N) : N := N.lxor z (g3 z).
Definition u2 (z : N) : N := N.lxor z (N.lxor (g2 z) (N.lxor (g2 (g2 z)) (g2 (g2 (g2 z))))).
Definition u1 (z : N) : N := N.lxor z (N.lxor (g1 z) (g1 (g1 z))).
Definition untemper (z : N) : N := u1 (u2 (u3 (u4 z))).

Lemma lin_g1 : lin g1.
Proof. apply (lin_comp (fun x => N.land x _)); [apply lin_land|apply lin_shiftr]. Qed.
Lemma lin_g2 : lin g2.
Proof. apply (lin_comp (fun x => N.land x _)); [apply lin_land|]. apply (lin_comp (fun x => x mod _)); [apply lin_mod|apply lin_shiftl]. Qed.
Lemma lin_g3 : lin g3.
Proof. apply (lin_comp (fun x => N.land x _)); [apply lin_land|]. apply (lin_comp (fun x => x mod _)); [apply lin_mod|apply lin_shiftl]. Qed.
Lemma lin_untemper : lin untemper.
Proof.
  unfold untemper. apply (lin_comp u1 (fun z => u2 (u3 (u4 z)))).
  { apply lin_xor; [apply lin_id|]. apply lin_xor; [apply lin_g1|]. apply (lin_comp g1 g1); apply lin_g1. }
  apply (lin_comp u2 (fun z => u3 (u4 z))).
  { apply lin_xor; [apply lin_id|]. apply lin_xor; [apply lin_g2|]. apply lin_xor.
    - apply (lin_comp g2 g2); apply lin_g2.
    - apply (lin_comp g2 (fun z => g2 (g2 z))); [apply lin_g2|]. apply (lin_comp g2 g2); apply lin_g2. }
  apply (lin_comp u3 u4).
  { apply lin_xor; [apply lin_id|apply lin_g3]. }
  apply lin_xor; [apply lin_id|apply lin_shiftr].
Qed.

Lemma untemper_temper x : x < 2 ^ 64 -> untemper (mt_temper x) = x.
Proof.
  apply (lin_ext (fun x => untemper (mt_temper x)) (fun x => x) 64).
  - apply (lin_comp untemper mt_temper); [apply lin_untemper|apply lin_temper].
  - apply lin_id.
  - intros i Hi. apply N.eqb_eq. apply (basis_check (fun i => untemper (mt_temper (2 ^ i)) =? 2 ^ i)); [vm_compute; reflexivity|exact Hi].
Qed.

(** ** The recurrence *)

Definition up (x : N) : N := N.land x 0xffffffff80000000.
Definition lo (x : N) : N := N.land x 0x7fffffff.
Definition tw_a (y : N) : N := N.lxor (N.shiftr y 1) (if N.odd y then 0xb5026f5aa96619e9 else 0).

Lemma lin_a : lin tw_a.
Proof.
  apply lin_xor; [apply lin_shiftr|]. intros a b. rewrite <- !N.bit0_odd, N.lxor_spec.
  destruct (N.testbit a 0), (N.testbit b 0); reflexivity.
Qed.

Lemma tw_a_0 y : y < 2 ^ 64 -> tw_a y = 0 -> y = 0.
Proof.
  intros Hy E. unfold tw_a in E. apply N.lxor_eq in E. rewrite N.shiftr_div_pow2 in E. change (2 ^ 1) with 2 in E.
  pose proof (N.div_mod y 2 ltac:(discriminate)) as D.
  destruct (N.odd y) eqn:O.
  - assert (y / 2 < 2 ^ 63) by (apply N.div_lt_upper_bound; [discriminate|exact Hy]). rewrite E in H. discriminate H.
  - rewrite E in D. pose proof (N.mod_lt y 2 ltac:(discriminate)) as M.
    assert (C : y = 0 \/ y = 1) by lia. destruct C as [C|C]; [exact C|]. rewrite C in O. discriminate O.
Qed.

Lemma lor_xor_up_lo a b : N.lor (up a) (lo b) = N.lxor (up a) (lo b).
Proof.
  symmetry. apply N.lxor_lor. unfold up, lo. apply N.bits_inj. intros i. rewrite N.bits_0, !N.land_spec.
  assert (K : N.testbit 0xffffffff80000000 i && N.testbit 0x7fffffff i = false).
  { rewrite <- N.land_spec. change (N.land 18446744071562067968 2147483647) with 0. apply N.bits_0. }
  destruct (N.testbit a i), (N.testbit b i), (N.testbit 0xffffffff80000000 i), (N.testbit 0x7fffffff i); (reflexivity || discriminate K).
Qed.

Lemma up_lo d : d < 2 ^ 64 -> up d = 0 -> lo d = 0 -> d = 0.
Proof.
  intros H U0 L0. assert (E : N.lxor (up d) (lo d) = d).
  { apply (lin_ext (fun d => N.lxor (up d) (lo d)) (fun d => d) 64); [|apply lin_id| |exact H].
    - apply lin_xor; apply lin_land.
    - intros i Hi. apply N.eqb_eq. apply (basis_check (fun i => N.lxor (up (2 ^ i)) (lo (2 ^ i)) =? 2 ^ i)); [vm_compute; reflexivity|exact Hi]. }
  rewrite <- E, U0, L0. reflexivity.
Qed.

Lemma comb_0 a b : N.lxor (up a) (lo b) = 0 -> up a = 0 /\ lo b = 0.
Proof.
  intros H. apply N.lxor_eq in H.
  assert (Z : N.land (up a) (lo b) = 0).
  { unfold up, lo. apply N.bits_inj. intros i. rewrite N.bits_0, !N.land_spec.
    assert (K : N.testbit 0xffffffff80000000 i && N.testbit 0x7fffffff i = false).
    { rewrite <- N.land_spec. change (N.land 18446744071562067968 2147483647) with 0. apply N.bits_0. }
    destruct (N.testbit a i), (N.testbit b i), (N.testbit 0xffffffff80000000 i), (N.testbit 0x7fffffff i); (reflexivity || discriminate K). }
  rewrite H, N.land_diag in Z. rewrite Z in H. split; assumption.
Qed.

Lemma lt_up a : up a < 2 ^ 64.
Proof.
  unfold up. destruct (N.eq_dec (N.land a 18446744071562067968) 0) as [->|NZ]; [reflexivity|].
  apply N.log2_lt_pow2; [lia|]. eapply N.le_lt_trans; [apply N.log2_land|].
  eapply N.le_lt_trans; [apply N.le_min_r|reflexivity].
Qed.
Lemma lt_lo a : lo a < 2 ^ 64.
Proof. unfold lo. change 2147483647 with (N.ones 31). rewrite N.land_ones. eapply N.lt_trans; [apply N.mod_lt; discriminate|reflexivity]. Qed.

(** The difference of two sequences. *)
Section Difference.
Variables (s s' : N) (x x' : nat -> N).
Hypothesis (Tx : twister_sequence s x) (Tx' : twister_sequence s' x').
Let d (k : nat) : N := N.lxor (x k) (x' k).

Lemma d_lt k : d k < 2 ^ 64.
Proof. apply lt_xor; [exact (twister_bound _ _ Tx k)|exact (twister_bound _ _ Tx' k)]. Qed.

Lemma seq_rec t y : twister_sequence t y -> forall k, y (k + 312)%nat = N.lxor (y (k + 156)%nat) (tw_a (N.lxor (up (y k)) (lo (y (S k))))).
Proof.
  intros Ty k. pose proof (twister_bound _ _ Ty) as B. destruct Ty as (_ & _ & H). specialize (H k). cbv zeta in H.
  rewrite <- upper_lower in H by apply B. fold (up (y k)) in H. fold (lo (y (S k))) in H. rewrite lor_xor_up_lo in H.
  rewrite H. unfold tw_a. rewrite N.shiftr_div_pow2, <- N.negb_even. change (2 ^ 1) with 2. destruct (N.even _); reflexivity.
Qed.

Lemma d_rec k : N.lxor (d (k + 312)%nat) (d (k + 156)%nat) = tw_a (N.lxor (up (d k)) (lo (d (S k)))).
Proof.
  unfold d. rewrite (seq_rec _ _ Tx k), (seq_rec _ _ Tx' k).
  unfold up, lo. rewrite (lin_land 18446744071562067968 (x k) (x' k)), (lin_land 2147483647 (x (S k)) (x' (S k))).
  fold (up (x k)) (up (x' k)) (lo (x (S k))) (lo (x' (S k))).
  replace (N.lxor (N.lxor (up (x k)) (up (x' k))) (N.lxor (lo (x (S k))) (lo (x' (S k)))))
    with (N.lxor (N.lxor (up (x k)) (lo (x (S k)))) (N.lxor (up (x' k)) (lo (x' (S k))))).
  2: { apply N.bits_inj. intros i. rewrite !N.lxor_spec.
       destruct (N.testbit (up (x k)) i), (N.testbit (up (x' k)) i), (N.testbit (lo (x (S k))) i), (N.testbit (lo (x' (S k))) i); reflexivity. }
  rewrite (lin_a (N.lxor (up (x k)) (lo (x (S k)))) (N.lxor (up (x' k)) (lo (x' (S k))))).
  set (p := tw_a (N.lxor (up (x k)) (lo (x (S k))))). set (q := tw_a (N.lxor (up (x' k)) (lo (x' (S k))))).
  apply N.bits_inj. intros i. rewrite !N.lxor_spec.
  destruct (N.testbit (x (k + 156)%nat) i), (N.testbit (x' (k + 156)%nat) i), (N.testbit p i), (N.testbit q i); reflexivity.
Qed.

(** Hidden words: nothing but the replaced bits show after tempering. *)
Definition hidden (m : endian) (even : bool) (w : N) : Prop :=
  w < 2 ^ 64 /\ forall i, i < 64 -> ~ (if even then replaced_first m i else replaced_second m i) -> N.testbit (mt_temper w) i = false.

Definition hidden_words (m : endian) (even : bool) : list N :=
  map (fun c => untemper (N.shiftl c (match m, even with little, true => 52 | little, false => 6 | big, true => 12 | big, false => 62 end)))
      (map N.of_nat (seq 0 (if even then 16 else 4))).

Lemma temper_lt w : w < 2 ^ 64 -> mt_temper w < 2 ^ 64.
Proof.
  intros H.
  assert (E : mt_temper w mod 2 ^ 64 = mt_temper w).
  { apply (lin_ext (fun w => mt_temper w mod 2 ^ 64) mt_temper 64); [|apply lin_temper| |exact H].
    - apply (lin_comp (fun x => x mod _) mt_temper); [apply lin_mod|apply lin_temper].
    - intros i Hi. apply N.eqb_eq. apply (basis_check (fun i => mt_temper (2 ^ i) mod 2 ^ 64 =? mt_temper (2 ^ i))); [vm_compute; reflexivity|exact Hi]. }
  rewrite <- E. apply N.mod_lt. discriminate.
Qed.

Lemma window (n e k : N) : (forall i, i < e \/ e + k <= i -> N.testbit n i = false) -> exists c, c < 2 ^ k /\ n = N.shiftl c e.
Proof.
  intros H. exists (N.shiftr n e). split.
  - destruct (N.eq_dec (N.shiftr n e) 0) as [->|NZ]; [apply N.neq_0_lt_0; apply N.pow_nonzero; discriminate|].
    apply N.log2_lt_pow2; [lia|]. destruct (N.lt_ge_cases (N.log2 (N.shiftr n e)) k) as [L|L]; [exact L|].
    exfalso. pose proof (N.bit_log2 _ NZ) as B. rewrite N.shiftr_spec' in B. rewrite H in B by lia. discriminate B.
  - apply N.bits_inj. intros i. destruct (N.lt_ge_cases i e) as [L|L].
    + rewrite N.shiftl_spec_low by exact L. apply H. now left.
    + rewrite N.shiftl_spec_high' by exact L. rewrite N.shiftr_spec'. now replace (i - e + e) with i by lia.
Qed.

Lemma hidden_in m even w : hidden m even w -> In w (hidden_words m even).
Proof.
  intros [B H]. rewrite <- (untemper_temper w B). pose proof (temper_lt w B) as T.
  assert (Hi : forall i, 64 <= i -> N.testbit (mt_temper w) i = false).
  { intros i Hi. destruct (N.eq_dec (mt_temper w) 0) as [->|NZ]; [apply N.bits_0|].
    apply N.bits_above_log2. apply N.lt_le_trans with 64; [|exact Hi]. apply N.log2_lt_pow2; [now apply N.neq_0_lt_0|exact T]. }
  unfold hidden_words. apply in_map_iff.
  assert (W : exists c, c < (if even then 16 else 4) /\ mt_temper w = N.shiftl c (match m, even with little, true => 52 | little, false => 6 | big, true => 12 | big, false => 62 end)).
  { assert (Z : forall e k, (if even then 16 else 4) = 2 ^ k ->
        (forall i, i < 64 -> (i < e \/ e + k <= i) -> ~ (if even then replaced_first m i else replaced_second m i)) ->
        exists c, c < (if even then 16 else 4) /\ mt_temper w = N.shiftl c e).
    { intros e k Ek NR. rewrite Ek. apply window. intros i O. destruct (N.lt_ge_cases i 64) as [L|L]; [|now apply Hi].
      apply H; [exact L|]. now apply NR. }
    destruct m, even; cbv beta iota in *; [apply (Z 52 4)|apply (Z 6 2)|apply (Z 12 4)|apply (Z 62 2)];
      try reflexivity; intros i Hi64 O; unfold replaced_first, replaced_second; lia. }
  destruct W as (c & Hc & E). exists c. split; [now rewrite E|].
  apply in_map_iff. exists (N.to_nat c). split; [lia|]. apply in_seq. destruct even; lia.
Qed.

Lemma hidden_xor m even a b : hidden m even a -> hidden m even b -> hidden m even (N.lxor a b).
Proof.
  intros [A HA] [B HB]. split; [now apply lt_xor|]. intros i Hi NR.
  rewrite lin_temper, N.lxor_spec, HA, HB by assumption. reflexivity.
Qed.

Lemma hidden_step m even v w : hidden m even v -> hidden m (negb even) w -> hidden m even (tw_a (N.lxor (up v) (lo w))) ->
  up v = 0 /\ lo w = 0.
Proof.
  intros Hv Hw H. apply hidden_in in Hv, Hw, H.
  assert (C : forallb (fun v => forallb (fun w => implb (existsb (N.eqb (tw_a (N.lxor (up v) (lo w)))) (hidden_words m even))
                ((up v =? 0) && (lo w =? 0))) (hidden_words m (negb even))) (hidden_words m even) = true)
    by (destruct m, even; vm_compute; reflexivity).
  rewrite forallb_forall in C. specialize (C v Hv). rewrite forallb_forall in C. specialize (C w Hw).
  assert (X : existsb (N.eqb (tw_a (N.lxor (up v) (lo w)))) (hidden_words m even) = true).
  { apply existsb_exists. exists (tw_a (N.lxor (up v) (lo w))). split; [exact H|apply N.eqb_refl]. }
  rewrite X in C. cbn [implb] in C. apply Bool.andb_true_iff in C. destruct C as [C1 C2].
  split; now apply N.eqb_eq.
Qed.

Lemma hidden_up m even v : hidden m even v -> up v = 0 -> v = 0.
Proof.
  intros Hv U0. apply hidden_in in Hv.
  assert (C : forallb (fun v => implb (up v =? 0) (v =? 0)) (hidden_words m even) = true) by (destruct m, even; vm_compute; reflexivity).
  rewrite forallb_forall in C. specialize (C v Hv). rewrite U0 in C. now apply N.eqb_eq.
Qed.

(** All of the first 312 UUIDs equal: the words are hidden, so they are equal, and so are the seeds. *)
Lemma same_seed m :
  (forall j, (j < 312)%nat -> uuid_random m (tempered (x (312 + 2 * j)%nat)) (tempered (x (313 + 2 * j)%nat)) =
                              uuid_random m (tempered (x' (312 + 2 * j)%nat)) (tempered (x' (313 + 2 * j)%nat))) ->
  s mod 2 ^ 64 = s' mod 2 ^ 64.
Proof.
  intros H.
  assert (HE : forall k, (312 <= k < 936)%nat -> hidden m (Nat.even k) (d k)).
  { intros k Hk. split; [apply d_lt|]. unfold d. intros i Hi NR. rewrite lin_temper, N.lxor_spec.
    assert (TL : forall y t n, twister_sequence t y -> tempered (y n) < 2 ^ 64).
    { intros y t n Ty. rewrite <- temper_spec. apply temper_lt. exact (twister_bound _ _ Ty n). }
    destruct (Nat.Even_or_Odd k) as [[p Ep]|[p Ep]].
    - assert (EV : Nat.even k = true) by (apply Nat.even_spec; exists p; exact Ep). rewrite EV in NR.
      specialize (H (p - 156)%nat ltac:(lia)). apply random_equal in H; [|eauto|eauto|eauto|eauto].
      destruct H as [H _]. specialize (H i Hi NR). replace (312 + 2 * (p - 156))%nat with k in H by lia.
      rewrite !temper_spec, H. apply Bool.xorb_nilpotent.
    - assert (EV : Nat.even k = false) by (rewrite <- Nat.negb_odd; apply Bool.negb_false_iff, Nat.odd_spec; exists p; exact Ep).
      rewrite EV in NR.
      specialize (H (p - 156)%nat ltac:(lia)). apply random_equal in H; [|eauto|eauto|eauto|eauto].
      destruct H as [_ H]. specialize (H i Hi NR). replace (313 + 2 * (p - 156))%nat with k in H by lia.
      rewrite !temper_spec, H. apply Bool.xorb_nilpotent. }
  assert (HS : forall k, (312 <= k < 624)%nat -> up (d k) = 0 /\ lo (d (S k)) = 0).
  { intros k Hk. apply (hidden_step m (Nat.even k)).
    - apply HE. lia.
    -
      replace (negb (Nat.even k)) with (Nat.even (S k)) by (rewrite Nat.even_succ, <- Nat.negb_even; reflexivity). apply HE. lia.
    - rewrite <- d_rec. apply hidden_xor.
      + replace (Nat.even k) with (Nat.even (k + 312)) by (rewrite Nat.even_add; change (Nat.even 312) with true; now destruct (Nat.even k)). apply HE. lia.
      + replace (Nat.even k) with (Nat.even (k + 156)) by (rewrite Nat.even_add; change (Nat.even 156) with true; now destruct (Nat.even k)). apply HE. lia. }
  assert (Z1 : forall k, (312 <= k < 624)%nat -> d k = 0).
  { intros k Hk. destruct (Nat.eq_dec k 312) as [->|NE].
    - apply (hidden_up m (Nat.even 312)); [apply HE; lia|]. apply HS. lia.
    - apply up_lo; [apply d_lt|apply HS; lia|]. replace k with (S (k - 1)) by lia. apply HS. lia. }
  assert (HT : forall k, (156 <= k < 312)%nat -> up (d k) = 0 /\ lo (d (S k)) = 0).
  { intros k Hk. apply comb_0, tw_a_0; [apply lt_xor; [apply lt_up|apply lt_lo]|].
    rewrite <- d_rec, !Z1 by lia. reflexivity. }
  assert (Z2 : d 157%nat = 0) by (apply up_lo; [apply d_lt|apply HT; lia|apply (HT 156%nat); lia]).
  assert (DN : forall k, (k <= 157)%nat -> x k = x' k -> x 0%nat = x' 0%nat).
  { induction k as [|k IH]; intros Hk E; [exact E|]. apply IH; [lia|].
    destruct Tx as (_ & S1 & _), Tx' as (_ & S2 & _). pose proof (twister_bound _ _ Tx k) as B1. pose proof (twister_bound _ _ Tx' k) as B2.
    rewrite (S1 (S k)), (S2 (S k)) in E by lia. replace (S k - 1)%nat with k in E by lia.
    set (p := N.lxor (x k) (x k / 2 ^ 62)) in *. set (q := N.lxor (x' k) (x' k / 2 ^ 62)) in *.
    assert (LL : forall y, y < 2 ^ 64 -> N.lxor y (y / 2 ^ 62) < 2 ^ 64).
    { intros y Hy. apply lt_xor; [exact Hy|]. apply N.div_lt_upper_bound; [discriminate|]. eapply N.lt_trans; [exact Hy|reflexivity]. }
    assert (PQ : p = q).
    { rewrite <- (N.mod_small p (2 ^ 64)), <- (N.mod_small q (2 ^ 64)) by (apply LL; assumption).
      assert (IV : forall y, y mod 2 ^ 64 = (13877824140714322085 * ((6364136223846793005 * y + N.of_nat (S k)) mod 2 ^ 64 + (2 ^ 64 - N.of_nat (S k)))) mod 2 ^ 64).
      { intros y. rewrite <- N.mul_mod_idemp_r by discriminate. rewrite N.add_mod_idemp_l by discriminate.
        rewrite N.mul_mod_idemp_r by discriminate.
        replace (13877824140714322085 * (6364136223846793005 * y + N.of_nat (S k) + (2 ^ 64 - N.of_nat (S k))))
          with (y + (4787856489426250814 * y + 13877824140714322085) * 2 ^ 64) by lia.
        now rewrite N.mod_add by discriminate. }
      rewrite (IV p), (IV q), E. reflexivity. }
    assert (INV : forall y, y < 2 ^ 64 -> N.lxor (N.lxor y (y / 2 ^ 62)) (N.lxor y (y / 2 ^ 62) / 2 ^ 62) = y).
    { intros y Hy. rewrite <- !N.shiftr_div_pow2.
      apply (lin_ext (fun y => N.lxor (N.lxor y (N.shiftr y 62)) (N.shiftr (N.lxor y (N.shiftr y 62)) 62)) (fun y => y) 64); [|apply lin_id| |exact Hy].
      - apply (lin_comp (fun z => N.lxor z (N.shiftr z 62)) (fun z => N.lxor z (N.shiftr z 62)));
        (apply lin_xor; [apply lin_id|apply lin_shiftr]).
      - intros i Hi. apply N.eqb_eq.
        apply (basis_check (fun i => N.lxor (N.lxor (2 ^ i) (N.shiftr (2 ^ i) 62)) (N.shiftr (N.lxor (2 ^ i) (N.shiftr (2 ^ i) 62)) 62) =? 2 ^ i)); [vm_compute; reflexivity|exact Hi]. }
    rewrite <- (INV (x k) B1), <- (INV (x' k) B2). fold p q. now rewrite PQ. }
  destruct Tx as (X0 & _ & _), Tx' as (X0' & _ & _). rewrite <- X0, <- X0'.
  apply (DN 157%nat); [lia|]. apply N.lxor_eq. exact Z2.
Qed.
End Difference.

Lemma different_values m sched a b ka kb v v' ra rb :
  steps_of a sched = repeat None ka ++ Some v :: ra -> steps_of b sched = repeat None kb ++ Some v' :: rb ->
  v < 2 ^ 32 -> v' < 2 ^ 32 ->
  (312 <= length (uuids (made_by m sched a)))%nat ->
  firstn 312 (uuids (made_by m sched a)) = firstn 312 (uuids (made_by m sched b)) -> v = v'.
Proof.
  intros HA HB Hv Hv' L E.
  pose proof (tw_exists (v mod 2 ^ 32)) as TA. pose proof (tw_exists (v' mod 2 ^ 32)) as TB.
  set (x := tw (v mod 2 ^ 32)) in *. set (x' := tw (v' mod 2 ^ 32)) in *. clearbody x x'.
  rewrite (made_exact _ _ _ _ _ _ HA), (made_exact _ _ _ _ _ _ HB) in E. rewrite (made_exact _ _ _ _ _ _ HA) in L.
  rewrite !uuids_app, !uuids_none, !uuids_made in E. rewrite uuids_app, uuids_none, uuids_made in L. cbn [app] in E, L.
  rewrite map_length, seq_length in L. set (na := ((length ra + 1) / 3)%nat) in *. set (nb := ((length rb + 1) / 3)%nat) in *.
  assert (LB : (312 <= nb)%nat).
  { apply (f_equal (@length _)) in E. rewrite !firstn_length, !map_length, !seq_length in E. lia. }
  assert (S : v mod 2 ^ 32 mod 2 ^ 64 = v' mod 2 ^ 32 mod 2 ^ 64).
  { apply (same_seed _ _ x x' TA TB m). intros j Hj.
    assert (EJ := f_equal (fun l => nth_error l j) E). cbv beta in EJ.
    assert (NE : forall (l : list (list byte)) k i, (i < k)%nat -> nth_error (firstn k l) i = nth_error l i).
    { induction l as [|y l IHl]; intros [|k] [|i] Hi; try lia; try reflexivity. cbn [firstn nth_error]. apply IHl. lia. }
    rewrite !NE, !nth_error_map in EJ by exact Hj.
    rewrite (nth_error_nth' (seq 0 na) 0%nat), (nth_error_nth' (seq 0 nb) 0%nat), !seq_nth in EJ by (rewrite ?seq_length; lia).
    cbn [option_map] in EJ. injection EJ as EJ. rewrite !(mt_word _ _ _ TA), !(mt_word _ _ _ TB) in EJ.
    replace (312 + 2 * j)%nat with (2 * j + 312)%nat by lia. replace (313 + 2 * j)%nat with (2 * j + 1 + 312)%nat by lia. exact EJ. }
  rewrite !(N.mod_small _ (2 ^ 64)) in S by (eapply N.lt_trans; [apply N.mod_lt; discriminate|reflexivity]).
  rewrite !N.mod_small in S by assumption. exact S.
Qed.

Lemma steps_repeat i n : steps_of i (repeat (i, @None N) n) = repeat None n.
Proof.
  unfold steps_of. induction n as [|n IH]; [reflexivity|]. cbn [repeat filter fst]. rewrite Nat.eqb_refl. cbn [map snd repeat].
  f_equal. exact IH.
Qed.
Lemma steps_repeat_other i j n : i <> j -> steps_of i (repeat (j, @None N) n) = [].
Proof.
  intros NE. unfold steps_of. induction n as [|n IH]; [reflexivity|]. cbn [repeat filter fst].
  rewrite (proj2 (Nat.eqb_neq j i)) by congruence. exact IH.
Qed.
(** Two threads that make 312 UUIDs each. *)
Lemma long_threads_n m v v' n : exists sched ra rb,
  steps_of 0 sched = repeat None 0 ++ Some v :: ra /\ steps_of 1 sched = repeat None 0 ++ Some v' :: rb /\
  length (uuids (made_by m sched 0)) = ((n + 1) / 3)%nat /\ length (uuids (made_by m sched 1)) = ((n + 1) / 3)%nat.
Proof.
  set (sched := [(0%nat, Some v); (1%nat, Some v')] ++ repeat (0%nat, None) n ++ repeat (1%nat, None) n).
  assert (A : steps_of 0 sched = repeat None 0 ++ Some v :: repeat None n).
  { unfold sched. rewrite !steps_of_app, steps_repeat, steps_repeat_other by discriminate. rewrite app_nil_r. reflexivity. }
  assert (B : steps_of 1 sched = repeat None 0 ++ Some v' :: repeat None n).
  { unfold sched. rewrite !steps_of_app, steps_repeat, steps_repeat_other by discriminate. reflexivity. }
  exists sched, (repeat None n), (repeat None n). split; [exact A|]. split; [exact B|].
  rewrite (made_exact _ _ _ _ _ _ A), (made_exact _ _ _ _ _ _ B), !uuids_app, !uuids_none, !uuids_made.
  cbn [app]. rewrite !map_length, !seq_length, repeat_length. split; reflexivity.
Qed.
Lemma long_threads m v v' : exists sched ra rb,
  steps_of 0 sched = repeat None 0 ++ Some v :: ra /\ steps_of 1 sched = repeat None 0 ++ Some v' :: rb /\
  length (uuids (made_by m sched 0)) = 312%nat /\ length (uuids (made_by m sched 1)) = 312%nat.
Proof.
  destruct (long_threads_n m v v' 935) as (sched & ra & rb & A & B & C & D). exists sched, ra, rb.
  replace ((935 + 1) / 3)%nat with 312%nat in C, D by reflexivity. repeat split; assumption.
Qed.
