(** Proofs about UUID construction, comparison and hashing. *)
From Verif Require Import Base BaseFacts Io_Model Io_Spec Io_Proofs Hex_Model Hex_Spec Hex_Proofs Uuid_Model Uuid_Spec Uuid_Proofs.
From Coq Require Import Ascii String List. Import ListNotations.
Open Scope N_scope. Open Scope list_scope.

(** ** Fields *)
Lemma le_num_le_bytes n : forall u, u < 256 ^ N.of_nat n -> le_num (le_bytes n u) = u.
Proof.
  induction n as [|n IH]; intros u H.
  - change (256 ^ N.of_nat 0) with 1 in H. cbn. lia.
  - cbn [le_bytes le_num]. rewrite to_N_byte_of_N, IH.
    + pose proof (N.div_mod u 256). lia.
    + apply N.div_lt_upper_bound; [lia|].
      replace (N.of_nat (S n)) with (N.succ (N.of_nat n)) in H by lia. rewrite N.pow_succ_r' in H. lia.
Qed.

Lemma le_bytes_length n : forall u, length (le_bytes n u) = n.
Proof. induction n; intros; [reflexivity|]. cbn [le_bytes length]. now rewrite IHn. Qed.

Definition fields_data (d1 d2 d3 : Z) (d4 : list byte) : list byte :=
  le_bytes 4 (Z.to_N d1) ++ le_bytes 2 (Z.to_N d2) ++ le_bytes 2 (Z.to_N d3) ++ d4.

Lemma byte_roundtrip_mem m b :
  to_mem m (SInt 1 false) (VInt (Z.of_N (Byte.to_N b))) = [b].
Proof. destruct b, m; reflexivity. Qed.

Lemma fields_bytes m n d : (0 <= d < 2 ^ (8 * Z.of_nat n))%Z ->
  bytes_of_value (Env m m) (TEnc little n false) (VInt d) = le_bytes n (Z.to_N d).
Proof.
  intros H. unfold bytes_of_value, byte_begin_order, to_mem, int_to_mem. cbn [machine configured].
  rewrite Z.mod_small by assumption. destruct m; cbn [endian_eqb]; [reflexivity|apply rev_involutive].
Qed.

Lemma from_fields_char m d1 d2 d3 d4 : fields_ok d1 d2 d3 d4 ->
  uuid_from_fields (Env m m) d1 d2 d3 d4 = Ok (fields_data d1 d2 d3 d4).
Proof.
  intros (H1 & H2 & H3 & H4). unfold uuid_from_fields.
  do 8 (destruct d4 as [|? d4]; [discriminate H4|]). destruct d4; [|discriminate H4].
  unfold write. match goal with |- context [lenN ?a <? ?b] => change (lenN a <? b) with false end. cbv iota.
  cbn [recursive_unsafe_write unchecked_write].
  rewrite !fields_bytes by assumption.
  unfold fields_data.
  cbn [map write_range_elems]. unfold bytes_of_value. cbn [machine]. 
  rewrite !byte_roundtrip_mem.
  cbn [le_bytes app]. lazy -[byte_of_N N.div Z.to_N]. reflexivity.
Qed.

Lemma fields_uuid d1 d2 d3 d4 : length d4 = 8%nat -> is_uuid (fields_data d1 d2 d3 d4).
Proof. intros H. unfold is_uuid, fields_data. rewrite !app_length, !le_bytes_length, H. reflexivity. Qed.

Lemma nth_fixed up w : forall v i, (i < w)%nat ->
  nth_error (fixed up w v) i = Some (digit up ((v / 16 ^ N.of_nat (w - 1 - i)) mod 16)).
Proof.
  induction w as [|w IH]; intros v i H; [lia|]. cbn [fixed].
  destruct (Nat.eq_dec i w) as [->|].
  - rewrite nth_error_app2 by (rewrite fixed_length; lia). rewrite fixed_length, Nat.sub_diag.
    replace (S w - 1 - w)%nat with 0%nat by lia. change (16 ^ N.of_nat 0) with 1. rewrite N.div_1_r. reflexivity.
  - rewrite nth_error_app1 by (rewrite fixed_length; lia). rewrite IH by lia.
    rewrite N.div_div by (try apply N.pow_nonzero; lia). rewrite <- N.pow_succ_r'.
    do 5 f_equal. lia.
Qed.

Lemma fixed_hex_number up w v : (0 <= v)%Z -> is_hex_number up w v (fixed up w (Z.to_N v)).
Proof.
  intros H. split; [apply fixed_length|]. intros i Hi. rewrite nth_fixed by assumption. do 2 f_equal.
  rewrite Z2N.inj_mod, Z2N.inj_div, Z2N.inj_pow by (try apply Z.div_pos; try apply Z.pow_nonneg; lia).
  change (Z.to_N 16) with 16.
  replace (Z.to_N (Z.of_nat (w - 1 - i))) with (N.of_nat (w - 1 - i)) by lia. reflexivity.
Qed.

Lemma fields_text m w up d1 d2 d3 d4 : fields_ok d1 d2 d3 d4 ->
  exists u s1 s2 s3,
    uuid_from_fields (Env m m) d1 d2 d3 d4 = Ok u /\
    is_hex_number up 8 d1 s1 /\ is_hex_number up 4 d2 s2 /\ is_hex_number up 4 d3 s3 /\
    to_string (Env m m) w u (letter up FD) =
      Ok (s1 ++ txt "-" ++ s2 ++ txt "-" ++ s3 ++ txt "-" ++ bytes_text up (firstn 2 d4)
          ++ txt "-" ++ bytes_text up (skipn 2 d4)).
Proof.
  intros H. pose proof H as (H1 & H2 & H3 & H4).
  exists (fields_data d1 d2 d3 d4), (fixed up 8 (Z.to_N d1)), (fixed up 4 (Z.to_N d2)), (fixed up 4 (Z.to_N d3)).
  split; [now apply from_fields_char|]. split; [apply fixed_hex_number; lia|].
  split; [apply fixed_hex_number; lia|]. split; [apply fixed_hex_number; lia|].
  rewrite to_string_char by now apply fields_uuid. f_equal.
  assert (F : forall n d, (0 <= d)%Z -> Z.to_N d < 256 ^ N.of_nat n ->
     fixed up (2 * n) (Z.to_N d) = flat_map (pair_of up) (rev (le_bytes n (Z.to_N d)))).
  { intros n d P B. rewrite <- fixed_le_num, le_bytes_length, le_num_le_bytes by assumption. reflexivity. }
  change 8%nat with (2 * 4)%nat at 1. change 4%nat with (2 * 2)%nat at 2 3.
  rewrite !F by (try lia; change (256 ^ N.of_nat 4) with (2 ^ 32); change (256 ^ N.of_nat 2) with (2 ^ 16); lia).
  unfold uuid_text, layout, fields_data.
  do 8 (destruct d4 as [|? d4]; [discriminate H4|]). destruct d4; [|discriminate H4].
  cbn [le_bytes app rev firstn skipn]. lazy -[digit N.div N.modulo Byte.to_N byte_of_N Z.to_N]. reflexivity.
Qed.

Lemma le_bytes_inj n a b : a < 256 ^ N.of_nat n -> b < 256 ^ N.of_nat n -> le_bytes n a = le_bytes n b -> a = b.
Proof. intros A B E. rewrite <- (le_num_le_bytes n a A), <- (le_num_le_bytes n b B). congruence. Qed.

Lemma app_inj_len {A} (a b c d : list A) : length a = length c -> a ++ b = c ++ d -> a = c /\ b = d.
Proof.
  revert c; induction a; intros [|x c] L E; try discriminate; auto.
  injection E as -> E. injection L as L. destruct (IHa c L E). split; congruence.
Qed.

Lemma fields_inj m a1 a2 a3 a4 b1 b2 b3 b4 : fields_ok a1 a2 a3 a4 -> fields_ok b1 b2 b3 b4 ->
  uuid_from_fields (Env m m) a1 a2 a3 a4 = uuid_from_fields (Env m m) b1 b2 b3 b4 <->
  a1 = b1 /\ a2 = b2 /\ a3 = b3 /\ a4 = b4.
Proof.
  intros A B. split; [|intros (-> & -> & -> & ->); reflexivity].
  rewrite !from_fields_char by assumption. intros E.
  assert (E' : fields_data a1 a2 a3 a4 = fields_data b1 b2 b3 b4) by congruence. clear E.
  destruct A as (A1 & A2 & A3 & A4), B as (B1 & B2 & B3 & B4). unfold fields_data in E'.
  apply app_inj_len in E'; [|now rewrite !le_bytes_length]. destruct E' as [E1 E'].
  apply app_inj_len in E'; [|now rewrite !le_bytes_length]. destruct E' as [E2 E'].
  apply app_inj_len in E'; [|now rewrite !le_bytes_length]. destruct E' as [E3 E4].
  apply le_bytes_inj in E1; [|change (256 ^ N.of_nat 4) with (2 ^ 32); lia..].
  apply le_bytes_inj in E2; [|change (256 ^ N.of_nat 2) with (2 ^ 16); lia..].
  apply le_bytes_inj in E3; [|change (256 ^ N.of_nat 2) with (2 ^ 16); lia..].
  repeat split; auto; lia.
Qed.

(** ** Random *)
Lemma int_to_mem_length m n z : length (int_to_mem m n z) = n.
Proof. unfold int_to_mem. destruct m; rewrite ?rev_length; apply le_bytes_length. Qed.

Definition b6 (x : byte) : byte := byte_of_N (N.lor (N.land (Byte.to_N x) 15) 64).
Definition b8 (x : byte) : byte := byte_of_N (N.lor (N.land (Byte.to_N x) 63) 128).

Lemma random_char m w1 w2 : exists p0 p1 p2 p3 p4 p5 p6 p7 q0 q1 q2 q3 q4 q5 q6 q7,
  int_to_mem m 8 (Z.of_N w1) = [p0;p1;p2;p3;p4;p5;p6;p7] /\
  int_to_mem m 8 (Z.of_N w2) = [q0;q1;q2;q3;q4;q5;q6;q7] /\
  uuid_random m w1 w2 = [p0;p1;p2;p3;p4;p5;b6 p6;p7;b8 q0;q1;q2;q3;q4;q5;q6;q7].
Proof.
  unfold uuid_random.
  pose proof (int_to_mem_length m 8 (Z.of_N w1)) as L1. pose proof (int_to_mem_length m 8 (Z.of_N w2)) as L2.
  destruct (int_to_mem m 8 (Z.of_N w1)) as [|p0 [|p1 [|p2 [|p3 [|p4 [|p5 [|p6 [|p7 [|? ?]]]]]]]]]; try discriminate.
  destruct (int_to_mem m 8 (Z.of_N w2)) as [|q0 [|q1 [|q2 [|q3 [|q4 [|q5 [|q6 [|q7 [|? ?]]]]]]]]]; try discriminate.
  repeat eexists.
Qed.

Lemma b6_nibble x : Byte.to_N (b6 x) / 16 = 4 /\ Byte.to_N (b6 x) mod 16 = Byte.to_N x mod 16.
Proof. destruct x; vm_compute; auto. Qed.
Lemma b8_nibble x : 8 <= Byte.to_N (b8 x) / 16 <= 11 /\ Byte.to_N (b8 x) mod 64 = Byte.to_N x mod 64.
Proof. destruct x; vm_compute; (split; [split; discriminate|reflexivity]). Qed.

Lemma random_text m w up w1 w2 : exists s c,
  to_string (Env m m) w (uuid_random m w1 w2) (letter up FD) = Ok s /\
  nth_error s 16 = Some (chr "4") /\ nth_error s 19 = Some c /\
  In c (if up then txt "89AB" else txt "89ab").
Proof.
  destruct (random_char m w1 w2) as (p0&p1&p2&p3&p4&p5&p6&p7&q0&q1&q2&q3&q4&q5&q6&q7&_&_&->).
  eexists. exists (digit up (Byte.to_N (b8 q0) / 16)). split; [apply to_string_char; reflexivity|].
  split; [|split].
  - replace (chr "4") with (digit up (Byte.to_N (b6 p6) / 16)); [reflexivity|].
    rewrite (proj1 (b6_nibble p6)). destruct up; reflexivity.
  - reflexivity.
  - destruct (b8_nibble q0) as [B _]. set (x := Byte.to_N (b8 q0) / 16) in *.
    assert (x = 8 \/ x = 9 \/ x = 10 \/ x = 11) as [-> | [-> | [-> | ->]]] by lia; destruct up; cbn; auto.
Qed.

Lemma random_version_refuted m : exists w1 w2 s,
  to_string (Env m m) narrow (uuid_random m w1 w2) (letter true FD) = Ok s /\ nth_error s 14 <> Some (chr "4").
Proof.
  exists 0, 0. eexists. split; [apply to_string_char; destruct m; reflexivity|]. destruct m; discriminate.
Qed.

Lemma random_bits m w1 w2 : w1 < 2 ^ 64 -> w2 < 2 ^ 64 ->
  let u := uuid_random m w1 w2 in let v := int_to_mem m 8 (Z.of_N w1) ++ int_to_mem m 8 (Z.of_N w2) in
  length u = 16%nat /\
  (forall i, i <> 6%nat -> i <> 8%nat -> nth_error u i = nth_error v i) /\
  Byte.to_N (nth 6 u x00) mod 16 = Byte.to_N (nth 6 v x00) mod 16 /\
  Byte.to_N (nth 8 u x00) mod 64 = Byte.to_N (nth 8 v x00) mod 64.
Proof.
  intros _ _. cbv zeta.
  destruct (random_char m w1 w2) as (p0&p1&p2&p3&p4&p5&p6&p7&q0&q1&q2&q3&q4&q5&q6&q7&->&->&->).
  split; [reflexivity|]. split; [|split].
  - intros i A B. do 16 (destruct i as [|i]; [try congruence; reflexivity|]). reflexivity.
  - cbn [nth]. apply b6_nibble.
  - cbn [nth app]. apply b8_nibble.
Qed.

Lemma random_bits_wire m w1 w2 a b : w1 < 2 ^ 64 -> w2 < 2 ^ 64 ->
  is_wire m 8 (Z.of_N w1) a -> is_wire m 8 (Z.of_N w2) b ->
  let u := uuid_random m w1 w2 in
  length u = 16%nat /\
  (forall i, i <> 6%nat -> i <> 8%nat -> nth_error u i = nth_error (a ++ b) i) /\
  Byte.to_N (nth 6 u x00) mod 16 = Byte.to_N (nth 6 (a ++ b) x00) mod 16 /\
  Byte.to_N (nth 8 u x00) mod 64 = Byte.to_N (nth 8 (a ++ b) x00) mod 64.
Proof.
  intros A B Ha Hb. rewrite (is_wire_unique _ _ _ _ _ Ha (is_wire_mem m 8 (Z.of_N w1))).
  rewrite (is_wire_unique _ _ _ _ _ Hb (is_wire_mem m 8 (Z.of_N w2))). now apply random_bits.
Qed.

(** ** Order *)
Lemma compare_eq a : forall b, uuid_compare a b = Eq <-> a = b.
Proof.
  induction a as [|x a IH]; intros [|y b]; cbn [uuid_compare]; split; try discriminate; auto.
  - destruct (N.compare_spec (Byte.to_N x) (Byte.to_N y)) as [E| |]; try discriminate.
    apply to_N_inj in E. subst. intros H. f_equal. now apply IH.
  - intros E. injection E as -> ->. rewrite N.compare_refl. now apply IH.
Qed.

Lemma compare_antisym a : forall b, uuid_compare b a = CompOpp (uuid_compare a b).
Proof.
  induction a as [|x a IH]; intros [|y b]; cbn [uuid_compare]; auto.
  rewrite (N.compare_antisym (Byte.to_N x)). destruct (Byte.to_N x ?= Byte.to_N y); cbn [CompOpp]; auto.
Qed.

Lemma compare_lt a : forall b, length a = length b -> (uuid_compare a b = Lt <-> lex_before a b).
Proof.
  induction a as [|x a IH]; intros [|y b] L; try discriminate.
  - cbn. split; [discriminate|]. intros (i & ? & ? & _ & H & _). destruct i; discriminate.
  - injection L as L. cbn [uuid_compare].
    destruct (N.compare_spec (Byte.to_N x) (Byte.to_N y)) as [E|E|E].
    + apply to_N_inj in E. subst y. rewrite IH by assumption. split.
      * intros (i & p & q & F & A & B & C). exists (S i), p, q. cbn. repeat split; auto. congruence.
      * intros ([|i] & p & q & F & A & B & C); [cbn in A, B; assert (p = q) by congruence; subst; lia|].
        exists i, p, q. cbn in *. repeat split; auto. congruence.
    + split; [intros _|reflexivity]. exists 0%nat, x, y. cbn. auto.
    + split; [discriminate|]. intros ([|i] & p & q & F & A & B & C).
      * cbn in A, B. injection A as ->; injection B as ->. lia.
      * cbn in F. injection F as -> _. lia.
Qed.

Lemma compare_trans a : forall b c, uuid_compare a b = Lt -> uuid_compare b c = Lt -> uuid_compare a c = Lt.
Proof.
  induction a as [|x a IH]; intros [|y b] [|z c]; cbn [uuid_compare]; try discriminate; auto.
  destruct (N.compare_spec (Byte.to_N x) (Byte.to_N y)) as [E|E|E]; try discriminate;
  destruct (N.compare_spec (Byte.to_N y) (Byte.to_N z)) as [E'|E'|E']; try discriminate; intros A B.
  - rewrite E, E', N.compare_refl. eauto.
  - rewrite E. now rewrite (proj2 (N.compare_lt_iff _ _)).
  - rewrite <- E'. now rewrite (proj2 (N.compare_lt_iff _ _)).
  - now rewrite (proj2 (N.compare_lt_iff _ _)) by lia.
Qed.

Lemma equal_iff a : forall b, uuid_equal a b = true <-> a = b.
Proof.
  induction a as [|x a IH]; intros [|y b]; cbn [uuid_equal]; split; try discriminate; auto.
  - rewrite andb_true_iff, N.eqb_eq, IH. intros [E ->]. apply to_N_inj in E. congruence.
  - intros E. injection E as -> ->. rewrite N.eqb_refl. now apply IH.
Qed.
