(** Proofs about numbers in hexadecimal text. *)
From Coq Require Import List Lia. Import ListNotations.
From Verif Require Import Base BaseFacts Io_Model Io_Spec Io_Proofs IoRead_Proofs Io_PropLemmas Hex_Model Hex_Spec Hex_Proofs
  HexText_Spec HexText_Proofs HexNumber_Spec.
Local Open Scope N_scope.

Lemma number_snoc s c : hex_number (s ++ [c]) =
  match hex_number s, hex_value c with Some x, Some d => Some (16 * x + d) | _, _ => None end.
Proof. unfold hex_number. now rewrite fold_left_app. Qed.

Lemma le_num_app a b : le_num (a ++ b) = le_num a + 256 ^ lenN a * le_num b.
Proof.
  induction a as [|x a IH].
  - cbn [app le_num]. change (lenN (@nil byte)) with 0. rewrite N.pow_0_r. lia.
  - cbn [app le_num]. rewrite IH, lenN_cons. rewrite ?N.add_1_r, ?N.add_1_l, N.pow_succ_r'. lia.
Qed.

Lemma denotes_number bs : forall s, denotes s bs -> hex_number s = Some (le_num (rev bs)).
Proof.
  induction bs as [|b bs IH] using rev_ind; intros s [L D].
  - destruct s; [reflexivity|discriminate L].
  - rewrite app_length in L. cbn [length] in L.
    assert (Hs : exists s0 h l, s = s0 ++ [h; l]).
    { exists (firstn (2 * length bs) s). pose proof (firstn_skipn (2 * length bs) s) as F.
      assert (LS : length (skipn (2 * length bs) s) = 2%nat) by (rewrite skipn_length; lia).
      destruct (skipn (2 * length bs) s) as [|h [|l [|? ?]]]; try discriminate LS. now exists h, l. }
    destruct Hs as (s0 & h & l & ->). rewrite app_length in L. cbn [length] in L.
    assert (L0 : length s0 = (2 * length bs)%nat) by lia.
    assert (D0 : denotes s0 bs).
    { split; [exact L0|]. intros i c Hi.
      assert (i < length bs)%nat by (apply nth_error_Some; congruence).
      destruct (D i c) as (h' & l' & hv & lv & H1 & H2 & H3); [rewrite nth_error_app1 by assumption; exact Hi|].
      rewrite nth_error_app1 in H1, H2 by lia. now exists h', l', hv, lv. }
    destruct (D (length bs) b) as (h' & l' & hv & lv & H1 & H2 & H3 & H4 & H5).
    { rewrite nth_error_app2, Nat.sub_diag by lia. reflexivity. }
    rewrite nth_error_app2 in H1, H2 by lia. rewrite L0, Nat.sub_diag in H1.
    replace (2 * length bs + 1 - length s0)%nat with 1%nat in H2 by lia.
    injection H1 as <-. injection H2 as <-.
    replace (s0 ++ [h; l]) with ((s0 ++ [h]) ++ [l]) by (now rewrite <- app_assoc).
    rewrite !number_snoc, (IH _ D0), H3, H4. f_equal. rewrite rev_app_distr. cbn [rev app le_num]. lia.
Qed.

Lemma number_hex s x : hex_number s = Some x -> Forall is_hex s.
Proof.
  revert x. induction s as [|c s IH] using rev_ind; intros x H; [constructor|].
  rewrite number_snoc in H. destruct (hex_number s) as [y|]; [|discriminate H].
  destruct (hex_value c) eqn:E; [|discriminate H]. apply Forall_app. split; [now apply (IH y)|].
  constructor; [|constructor]. unfold is_hex. congruence.
Qed.

Lemma number_denotes n s x : length s = (2 * n)%nat -> hex_number s = Some x ->
  exists bs, length bs = n /\ denotes s bs /\ le_num (rev bs) = x.
Proof.
  intros L H. pose proof (number_hex s x H) as F. pose proof (decode_denotes s n L F) as D.
  exists (decode s). pose proof (denotes_number _ _ D) as E. rewrite H in E. injection E as E.
  destruct D as [D1 D2]. split; [lia|]. split; [now split|]. now symmetry.
Qed.

Lemma is_wire_num n z bs : is_wire big n z bs ->
  le_num (rev bs) = Z.to_N (z mod 2 ^ (8 * Z.of_nat n)).
Proof.
  intros W. rewrite (is_wire_unique big n z bs (int_to_mem big n z) W (is_wire_mem big n z)).
  unfold int_to_mem. rewrite rev_involutive, le_num_le_bytes. apply N.mod_small.
  apply N2Z.inj_lt. rewrite to_N_mod_bound, N2Z.inj_pow, nat_N_Z. change (Z.of_N 256) with 256%Z. rewrite <- pow256.
  apply Z.mod_pos_bound. apply Z.pow_pos_nonneg; lia.
Qed.

Lemma denotes_unique s a b : denotes s a -> denotes s b -> a = b.
Proof. intros A B. apply denotes_decode in A as [-> _]. now apply denotes_decode in B as [-> _]. Qed.

Lemma hexlify_denotes b s : hexlify b = Ok s -> denotes s b.
Proof. rewrite hexlify_ok. intros H. injection H as <-. apply flat_enc_denotes. Qed.

Lemma hexlify_upper b s : hexlify b = Ok s -> Forall upper_hex_digit s.
Proof.
  intros H. destruct (hexlify_text b) as (t & E & L & T). rewrite H in E. injection E as <-.
  apply Forall_forall. intros c Hc. apply In_nth_error in Hc as [k Hk].
  assert (Lk : (k < length s)%nat) by (apply nth_error_Some; congruence).
  assert (Hb : exists x, nth_error b (Nat.div2 k) = Some x).
  { destruct (nth_error b (Nat.div2 k)) eqn:E; [eauto|]. apply nth_error_None in E.
    pose proof (Nat.div2_odd k). destruct (Nat.odd k); cbn [Nat.b2n] in *; lia. }
  destruct Hb as [x Hx]. destruct (T _ _ Hx) as [T1 T2]. pose proof (Nat.div2_odd k) as O.
  pose proof (to_N_lt x) as B.
  destruct (Nat.odd k); cbn [Nat.b2n] in O; rewrite O in Hk.
  - rewrite Hk in T2. injection T2 as ->. exists (Byte.to_N x mod 16). split; [apply N.mod_lt; lia|reflexivity].
  - rewrite Nat.add_0_r in Hk. rewrite Hk in T1. injection T1 as ->. exists (Byte.to_N x / 16).
    split; [apply N.div_lt_upper_bound; lia|reflexivity].
Qed.

(** a value and its text *)
Lemma value_text m n sg z : typed (TEnc big n sg) (VInt z) -> N.of_nat n < size_mod ->
  exists b s, to_bytes (Env m m) (TEnc big n sg) (VInt z) = Ok b /\ hexlify b = Ok s /\
    length s = (2 * n)%nat /\ Forall upper_hex_digit s /\ hex_number s = Some (Z.to_N (z mod 2 ^ (8 * Z.of_nat n))).
Proof.
  intros T H. destruct (from_to_bytes (Env m m) _ _ T H) as (b & E1 & _ & L & V & _).
  destruct (hexlify_text b) as (s & E2 & L2 & _). exists b, s. split; [exact E1|]. split; [exact E2|].
  assert (W : is_wire big n z b).
  { cbn [value_encoding] in V. unfold effective in V. cbn [machine configured] in V.
    destruct m; exact V. }
  split; [destruct W as [W _]; lia|]. split; [exact (hexlify_upper _ _ E2)|].
  rewrite (denotes_number _ _ (hexlify_denotes _ _ E2)). f_equal. exact (is_wire_num _ _ _ W).
Qed.

Lemma text_value w m n sg s x : (0 < n)%nat -> N.of_nat n < size_mod -> length s = (2 * n)%nat -> hex_number s = Some x ->
  exists b v, unhexlify w s = Ok b /\ unhexlify_n w n s = Ok b /\ from_bytes (Env m m) (TEnc big n sg) b = Ok [VInt v] /\
    typed (TEnc big n sg) (VInt v) /\ (v mod 2 ^ (8 * Z.of_nat n) = Z.of_N x)%Z.
Proof.
  intros P H L X. destruct (number_denotes n s x L X) as (b & Lb & D & E). exists b.
  destruct (to_from_bytes (Env m m) (TEnc big n sg) b P H) as (v & T & F & _ & B & _).
  { unfold lenN. rewrite Lb. reflexivity. }
  destruct v as [z|?]; [|contradiction T]. exists z.
  split; [now apply unhexlify_denotes|]. split; [rewrite <- Lb; now apply unhexlify_n_denotes|].
  split; [exact F|]. split; [exact T|].
  destruct (from_to_bytes (Env m m) _ _ T H) as (b' & E1 & _ & _ & V & _).
  rewrite B in E1. injection E1 as <-.
  assert (W : is_wire big n z b) by (cbn [value_encoding] in V; unfold effective in V; destruct m; exact V).
  rewrite (is_wire_num _ _ _ W) in E. rewrite <- E. now rewrite to_N_mod_bound.
Qed.

(** from_hex_chars takes the bytes in memory order *)
Lemma reverse_pairs_length n : forall s, length s = (2 * n)%nat -> length (reverse_pairs s) = (2 * n)%nat.
Proof.
  induction n as [|n IH]; intros s L.
  - destruct s; [reflexivity|discriminate L].
  - destruct s as [|h [|l r]]; try (cbn [length] in L; lia). cbn [reverse_pairs length] in *.
    rewrite app_length, IH by lia. cbn [length]. lia.
Qed.
Lemma denotes_app s a t b : denotes s a -> denotes t b -> denotes (s ++ t) (a ++ b).
Proof.
  intros [L1 D1] [L2 D2]. split; [rewrite !app_length; lia|]. intros i c Hi.
  destruct (Nat.lt_ge_cases i (length a)) as [K|K].
  - rewrite nth_error_app1 in Hi by lia. rewrite !nth_error_app1 by lia. now apply D1.
  - rewrite nth_error_app2 in Hi by lia. rewrite !nth_error_app2 by lia. rewrite L1.
    replace (2 * i - 2 * length a)%nat with (2 * (i - length a))%nat by lia.
    replace (2 * i + 1 - 2 * length a)%nat with (2 * (i - length a) + 1)%nat by lia. now apply D2.
Qed.
Lemma denotes_cons h l r b bs : denotes (h :: l :: r) (b :: bs) -> denotes [h; l] [b] /\ denotes r bs.
Proof.
  intros [L D]. cbn [length] in L. split; split.
  - reflexivity.
  - intros [|i] c Hi; [|destruct i; discriminate Hi]. injection Hi as <-. exact (D 0%nat b eq_refl).
  - lia.
  - intros i c Hi. destruct (D (S i) c Hi) as (h' & l' & hv & lv & H1 & H2 & R).
    exists h', l', hv, lv. split; [|split; [|exact R]].
    + rewrite <- H1. now replace (2 * S i)%nat with (S (S (2 * i))) by lia.
    + rewrite <- H2. now replace (2 * S i + 1)%nat with (S (S (2 * i + 1))) by lia.
Qed.
Lemma denotes_reverse bs : forall s, denotes s bs -> denotes (reverse_pairs s) (rev bs).
Proof.
  induction bs as [|b bs IH]; intros s D.
  - destruct s; [exact D|destruct D as [L _]; discriminate L].
  - destruct s as [|h [|l r]]; try (destruct D as [L _]; cbn [length] in L; lia).
    apply denotes_cons in D as [D1 D2]. cbn [reverse_pairs rev]. apply denotes_app; [now apply IH|exact D1].
Qed.

Lemma reverse_pairs_hex n : forall s, length s = (2 * n)%nat -> Forall is_hex (reverse_pairs s) -> Forall is_hex s.
Proof.
  induction n as [|n IH]; intros s L F.
  - destruct s; [constructor|discriminate L].
  - destruct s as [|h [|l r]]; try (cbn [length] in L; lia). cbn [reverse_pairs] in F. cbn [length] in L.
    apply Forall_app in F as [F1 F2]. constructor; [exact (Forall_inv F2)|].
    constructor; [exact (Forall_inv (Forall_inv_tail F2))|]. apply IH; [lia|exact F1].
Qed.

Lemma chars_value w m n sg s x : (0 < n)%nat -> N.of_nat n < size_mod -> length s = (2 * n)%nat ->
  hex_number (match m with big => s | little => reverse_pairs s end) = Some x ->
  exists b v, from_hex_chars w n s = Ok b /\ try_from_hex_chars w n s = Ok (RVal b) /\
    from_bytes (Env m m) (TPlain (SInt n sg)) b = Ok [VInt v] /\
    typed (TPlain (SInt n sg)) (VInt v) /\ (v mod 2 ^ (8 * Z.of_nat n) = Z.of_N x)%Z.
Proof.
  intros P H L X.
  assert (F : Forall is_hex s).
  { apply number_hex in X. destruct m; [|exact X]. now apply (reverse_pairs_hex n). }
  pose proof (decode_denotes s n L F) as D. set (b := decode s) in *. exists b.
  assert (Lb : length b = n) by (destruct D; lia).
  assert (E : le_num (match m with big => rev b | little => b end) = x).
  { destruct m.
    - pose proof (denotes_number _ _ (denotes_reverse _ _ D)) as E. rewrite X, rev_involutive in E. now injection E.
    - pose proof (denotes_number _ _ D) as E. rewrite X in E. now injection E. }
  pose proof (from_hex_chars_char w n s) as C. pose proof (try_from_hex_chars_char w n s) as C2.
  assert (R : from_hex_chars w n s = Ok b).
  { destruct (from_hex_chars w n s) as [bs|e| | |]; try contradiction.
    - destruct C as [_ C]. f_equal. exact (denotes_unique _ _ _ C D).
    - destruct C as [_ C]. exfalso. apply C. exists b. now split. }
  destruct (to_from_bytes (Env m m) (TPlain (SInt n sg)) b P H) as (v & T & Fb & _ & B & _).
  { unfold lenN. rewrite Lb. reflexivity. }
  destruct v as [z|?]; [|contradiction T]. exists z.
  split; [exact R|]. split.
  { rewrite R in C2. destruct (try_from_hex_chars w n s) as [[bs|e]| | | |]; try contradiction.
    - now injection C2 as <-.
    - destruct C2 as [C2 _]; discriminate C2. }
  split; [exact Fb|]. split; [exact T|].
  destruct (from_to_bytes (Env m m) _ _ T H) as (b' & E1 & _ & _ & V & _).
  rewrite B in E1. injection E1 as <-. cbn [value_encoding machine] in V.
  rewrite <- E. destruct m.
  - apply is_wire_rev in V. cbn [flip] in V. apply is_wire_num in V. rewrite rev_involutive in V. rewrite V.
    now rewrite to_N_mod_bound.
  - rewrite (is_wire_num _ _ _ V). now rewrite to_N_mod_bound.
Qed.

(** order *)
Lemma dict_num a : forall b, length a = length b ->
  (dict_less (map Byte.to_N a) (map Byte.to_N b) <-> le_num (rev a) < le_num (rev b)).
Proof.
  induction a as [|x a IH]; intros [|y b] L; try discriminate L.
  - cbn. split; [intros D; inversion D|lia].
  - injection L as L. specialize (IH b L). cbn [map rev]. rewrite !le_num_app. cbn [le_num].
    pose proof (le_num_bound (rev a)) as Ba. pose proof (le_num_bound (rev b)) as Bb.
    assert (Lr : lenN (rev a) = lenN (rev b)) by (unfold lenN; rewrite !rev_length; lia).
    rewrite Lr in *. set (p := 256 ^ lenN (rev b)) in *.
    split.
    + intros D. remember (Byte.to_N x) as u. remember (Byte.to_N y) as v.
      inversion D as [|x' y' a' b' K|x' a' b' K]; subst x' a' b'; [nia|]. apply IH in K. lia.
    + intros K. destruct (N.lt_trichotomy (Byte.to_N x) (Byte.to_N y)) as [O|[O|O]].
      * now apply less_here.
      * rewrite O in *. apply less_later. apply IH. lia.
      * nia.
Qed.

Lemma text_order m n y z : typed (TEnc big n false) (VInt y) -> typed (TEnc big n false) (VInt z) -> N.of_nat n < size_mod ->
  exists a b s t, to_bytes (Env m m) (TEnc big n false) (VInt y) = Ok a /\ hexlify a = Ok s /\
    to_bytes (Env m m) (TEnc big n false) (VInt z) = Ok b /\ hexlify b = Ok t /\
    ((y < z)%Z <-> dict_less s t) /\ (y = z <-> s = t).
Proof.
  intros T1 T2 H.
  destruct (from_to_bytes (Env m m) _ _ T1 H) as (a & E1 & _ & L1 & V1 & _).
  destruct (from_to_bytes (Env m m) _ _ T2 H) as (b & E2 & _ & L2 & V2 & _).
  destruct (hexlify_text a) as (s & S1 & _). destruct (hexlify_text b) as (t & S2 & _).
  exists a, b, s, t. do 4 (split; [assumption|]).
  assert (W1 : is_wire big n y a) by (cbn [value_encoding] in V1; unfold effective in V1; destruct m; exact V1).
  assert (W2 : is_wire big n z b) by (cbn [value_encoding] in V2; unfold effective in V2; destruct m; exact V2).
  destruct (hexlify_order a b s t S1 S2) as [O1 O2].
  pose proof (is_wire_num _ _ _ W1) as N1. pose proof (is_wire_num _ _ _ W2) as N2.
  unfold typed in T1, T2. cbn [scalar_of value_ok] in T1, T2. unfold int_ok in T1, T2.
  rewrite Z.mod_small in N1, N2 by (apply T1 || apply T2).
  split.
  - rewrite O1, dict_num by (destruct W1, W2; lia). rewrite N1, N2. destruct T1 as [_ [? ?]], T2 as [_ [? ?]]. lia.
  - rewrite O2. split; [intros <-; exact (is_wire_unique _ _ _ _ _ W1 W2)|]. intros <-. rewrite N1 in N2.
    destruct T1 as [_ [? ?]], T2 as [_ [? ?]]. lia.
Qed.
