(** When two random UUIDs are equal, in terms of the bits of their words. *)
From Coq Require Import List NArith Lia. Import ListNotations.
From Verif Require Import Base BaseFacts Io_Model Io_Proofs Uuid_Model UuidGen_Spec.
Local Open Scope N_scope.

Lemma to_N_byte n : Byte.to_N (byte_of_N n) = n mod 256.
Proof. apply to_N_byte_of_N. Qed.

(** Two bytes agree on the bits of a mask. *)
Lemma mod_bits n i : i < 8 -> N.testbit (n mod 256) i = N.testbit n i.
Proof. intros H. change 256 with (2 ^ 8). now apply N.mod_pow2_bits_low. Qed.

Definition digit (w : N) (k : N) : byte := byte_of_N (w / 256 ^ k).

Lemma digit_bits w k i : i < 8 -> N.testbit (Byte.to_N (digit w k)) i = N.testbit w (8 * k + i).
Proof.
  intros H. unfold digit. rewrite to_N_byte, mod_bits by exact H.
  change 256 with (2 ^ 8). rewrite <- N.pow_mul_r, N.div_pow2_bits. f_equal. lia.
Qed.

Lemma byte_high b i : 8 <= i -> N.testbit (Byte.to_N b) i = false.
Proof.
  intros H. destruct (N.eq_dec (Byte.to_N b) 0) as [->|NZ]; [apply N.bits_0|].
  apply N.bits_above_log2. apply N.log2_lt_pow2; [lia|].
  eapply N.lt_le_trans with (2 ^ 8); [pose proof (Byte.to_N_bounded b); lia|]. apply N.pow_le_mono_r; lia.
Qed.

Lemma byte_eq_bits a b : a = b <-> forall i, i < 8 -> N.testbit (Byte.to_N a) i = N.testbit (Byte.to_N b) i.
Proof.
  split; [now intros ->|]. intros H. apply to_N_inj. apply N.bits_inj. intros i.
  destruct (N.lt_ge_cases i 8) as [L|L]; [now apply H|]. now rewrite !byte_high.
Qed.

(** A byte with the bits of [keep] kept and those of [set] set. *)
Definition masked (keep set : N) (b : byte) : byte := byte_of_N (N.lor (N.land (Byte.to_N b) keep) set).

Lemma masked_eq keep set a b :
  masked keep set a = masked keep set b <->
  forall i, i < 8 -> N.testbit keep i = true -> N.testbit set i = false -> N.testbit (Byte.to_N a) i = N.testbit (Byte.to_N b) i.
Proof.
  unfold masked. rewrite byte_eq_bits. split; intros H i Hi.
  - intros K S0. specialize (H i Hi). rewrite !to_N_byte, !mod_bits, !N.lor_spec, !N.land_spec, K, S0 in H by exact Hi.
    now rewrite !Bool.andb_true_r, !Bool.orb_false_r in H.
  - rewrite !to_N_byte, !mod_bits, !N.lor_spec, !N.land_spec by exact Hi.
    destruct (N.testbit set i) eqn:S0; [now rewrite !Bool.orb_true_r|].
    destruct (N.testbit keep i) eqn:K; [|now rewrite !Bool.andb_false_r].
    now rewrite (H i Hi K S0).
Qed.

Lemma digits_le w : w < 2 ^ 64 ->
  int_to_mem little 8 (Z.of_N w) = [digit w 0; digit w 1; digit w 2; digit w 3; digit w 4; digit w 5; digit w 6; digit w 7].
Proof.
  intros H. unfold int_to_mem.
  replace (Z.to_N (Z.of_N w mod 2 ^ (8 * Z.of_nat 8))) with w.
  2: { rewrite Z.mod_small; [now rewrite N2Z.id|]. change (2 ^ (8 * Z.of_nat 8))%Z with (Z.of_N (2 ^ 64)). lia. }
  cbn [le_bytes]. unfold digit.
  rewrite !N.div_div by discriminate. change (256 ^ 0) with 1. rewrite N.div_1_r. reflexivity.
Qed.

Lemma digits_be w : w < 2 ^ 64 ->
  int_to_mem big 8 (Z.of_N w) = [digit w 7; digit w 6; digit w 5; digit w 4; digit w 3; digit w 2; digit w 1; digit w 0].
Proof. intros H. change (int_to_mem big 8 (Z.of_N w)) with (rev (int_to_mem little 8 (Z.of_N w))). now rewrite digits_le. Qed.

Lemma digit_eq a c k : digit a k = digit c k <-> forall i, 8 * k <= i < 8 * k + 8 -> N.testbit a i = N.testbit c i.
Proof.
  rewrite byte_eq_bits. split; intros H i Hi.
  - specialize (H (i - 8 * k) ltac:(lia)). rewrite !digit_bits in H by lia. now replace (8 * k + (i - 8 * k)) with i in H by lia.
  - rewrite !digit_bits by exact Hi. apply H. lia.
Qed.

Lemma low4 i : i < 8 -> N.testbit 15 i = true -> N.testbit 64 i = false -> i < 4.
Proof. intros H K _. assert (D : i = 0 \/ i = 1 \/ i = 2 \/ i = 3 \/ i = 4 \/ i = 5 \/ i = 6 \/ i = 7) by lia.
  destruct D as [->|[->|[->|[->|[->|[->|[->| ->]]]]]]]; (lia || discriminate K). Qed.
Lemma low6 i : i < 8 -> N.testbit 63 i = true -> N.testbit 128 i = false -> i < 6.
Proof. intros H K _. assert (D : i = 0 \/ i = 1 \/ i = 2 \/ i = 3 \/ i = 4 \/ i = 5 \/ i = 6 \/ i = 7) by lia.
  destruct D as [->|[->|[->|[->|[->|[->|[->| ->]]]]]]]; (lia || discriminate K). Qed.
Lemma low4' i : i < 4 -> N.testbit 15 i = true /\ N.testbit 64 i = false.
Proof. intros H. assert (D : i = 0 \/ i = 1 \/ i = 2 \/ i = 3) by lia. destruct D as [->|[->|[->| ->]]]; split; reflexivity. Qed.
Lemma low6' i : i < 6 -> N.testbit 63 i = true /\ N.testbit 128 i = false.
Proof. intros H. assert (D : i = 0 \/ i = 1 \/ i = 2 \/ i = 3 \/ i = 4 \/ i = 5) by lia.
  destruct D as [->|[->|[->|[->|[->| ->]]]]]; split; reflexivity. Qed.

Lemma version_eq a c k : masked 15 64 (digit a k) = masked 15 64 (digit c k) <->
  forall i, 8 * k <= i < 8 * k + 4 -> N.testbit a i = N.testbit c i.
Proof.
  rewrite masked_eq. split; intros H i Hi.
  - destruct (low4' (i - 8 * k)) as [K S0]; [lia|]. specialize (H (i - 8 * k) ltac:(lia) K S0).
    rewrite !digit_bits in H by lia. now replace (8 * k + (i - 8 * k)) with i in H by lia.
  - intros K S0. rewrite !digit_bits by exact Hi. apply H. pose proof (low4 i Hi K S0). lia.
Qed.
Lemma variant_eq a c k : masked 63 128 (digit a k) = masked 63 128 (digit c k) <->
  forall i, 8 * k <= i < 8 * k + 6 -> N.testbit a i = N.testbit c i.
Proof.
  rewrite masked_eq. split; intros H i Hi.
  - destruct (low6' (i - 8 * k)) as [K S0]; [lia|]. specialize (H (i - 8 * k) ltac:(lia) K S0).
    rewrite !digit_bits in H by lia. now replace (8 * k + (i - 8 * k)) with i in H by lia.
  - intros K S0. rewrite !digit_bits by exact Hi. apply H. pose proof (low6 i Hi K S0). lia.
Qed.

Lemma random_le a b : a < 2 ^ 64 -> b < 2 ^ 64 -> uuid_random little a b =
  [digit a 0; digit a 1; digit a 2; digit a 3; digit a 4; digit a 5; masked 15 64 (digit a 6); digit a 7;
   masked 63 128 (digit b 0); digit b 1; digit b 2; digit b 3; digit b 4; digit b 5; digit b 6; digit b 7].
Proof. intros Ha Hb. unfold uuid_random. rewrite !digits_le by assumption. reflexivity. Qed.
Lemma random_be a b : a < 2 ^ 64 -> b < 2 ^ 64 -> uuid_random big a b =
  [digit a 7; digit a 6; digit a 5; digit a 4; digit a 3; digit a 2; masked 15 64 (digit a 1); digit a 0;
   masked 63 128 (digit b 7); digit b 6; digit b 5; digit b 4; digit b 3; digit b 2; digit b 1; digit b 0].
Proof. intros Ha Hb. unfold uuid_random. rewrite !digits_be by assumption. reflexivity. Qed.

Lemma cons_eq {A} (x y : A) l l' : x :: l = y :: l' <-> x = y /\ l = l'.
Proof. split; [intros H; injection H; tauto|intros [-> ->]; reflexivity]. Qed.
Lemma nil_eq {A} : @nil A = [] <-> True.
Proof. tauto. Qed.

Lemma random_equal m a b c d : a < 2 ^ 64 -> b < 2 ^ 64 -> c < 2 ^ 64 -> d < 2 ^ 64 ->
  (uuid_random m a b = uuid_random m c d <->
   (forall i, i < 64 -> ~ replaced_first m i -> N.testbit a i = N.testbit c i) /\
   (forall i, i < 64 -> ~ replaced_second m i -> N.testbit b i = N.testbit d i)).
Proof.
  intros Ha Hb Hc Hd. destruct m.
  - rewrite !random_le by assumption. rewrite !cons_eq, nil_eq, version_eq, variant_eq, !digit_eq.
    unfold replaced_first, replaced_second. split.
    + intros (H0 & H1 & H2 & H3 & H4 & H5 & H6 & H7 & K0 & K1 & K2 & K3 & K4 & K5 & K6 & K7 & _). split; intros i Hi NR.
      * assert (D : i < 8 \/ 8 <= i < 16 \/ 16 <= i < 24 \/ 24 <= i < 32 \/ 32 <= i < 40 \/ 40 <= i < 48 \/ 48 <= i < 52 \/ 56 <= i) by lia.
        destruct D as [D|[D|[D|[D|[D|[D|[D|D]]]]]]];
        [apply H0|apply H1|apply H2|apply H3|apply H4|apply H5|apply H6|apply H7]; lia.
      * assert (D : i < 6 \/ 8 <= i < 16 \/ 16 <= i < 24 \/ 24 <= i < 32 \/ 32 <= i < 40 \/ 40 <= i < 48 \/ 48 <= i < 56 \/ 56 <= i) by lia.
        destruct D as [D|[D|[D|[D|[D|[D|[D|D]]]]]]];
        [apply K0|apply K1|apply K2|apply K3|apply K4|apply K5|apply K6|apply K7]; lia.
    + intros [H K]. repeat split; intros i Hi; (apply H || apply K); lia.
  - rewrite !random_be by assumption. rewrite !cons_eq, nil_eq, version_eq, variant_eq, !digit_eq.
    unfold replaced_first, replaced_second. split.
    + intros (H7 & H6 & H5 & H4 & H3 & H2 & H1 & H0 & K7 & K6 & K5 & K4 & K3 & K2 & K1 & K0 & _). split; intros i Hi NR.
      * assert (D : i < 8 \/ 8 <= i < 12 \/ 16 <= i < 24 \/ 24 <= i < 32 \/ 32 <= i < 40 \/ 40 <= i < 48 \/ 48 <= i < 56 \/ 56 <= i) by lia.
        destruct D as [D|[D|[D|[D|[D|[D|[D|D]]]]]]];
        [apply H0|apply H1|apply H2|apply H3|apply H4|apply H5|apply H6|apply H7]; lia.
      * assert (D : i < 8 \/ 8 <= i < 16 \/ 16 <= i < 24 \/ 24 <= i < 32 \/ 32 <= i < 40 \/ 40 <= i < 48 \/ 48 <= i < 56 \/ 56 <= i) by lia.
        destruct D as [D|[D|[D|[D|[D|[D|[D|D]]]]]]];
        [apply K0|apply K1|apply K2|apply K3|apply K4|apply K5|apply K6|apply K7]; lia.
    + intros [H K]. repeat split; intros i Hi; (apply H || apply K); lia.
Qed.
