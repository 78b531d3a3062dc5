(** Proofs of C95 and C96. *)
From Verif Require Import Base BaseFacts Hex_Model Hex_Spec HexText_Spec Hex_Proofs.
From Coq Require Import Ascii String List. Import ListNotations.
Open Scope N_scope. Open Scope list_scope.

(** ** Unchecked conversion *)
Definition bad_ok (c : N) : bool :=
  match hex_value c with
  | Some _ => true
  | None => (low_nibble_narrow c =? 255) && (low_nibble_wide c =? 255) && (high_nibble_narrow c =? 255) && (high_nibble_wide c =? 255)
  end.
Lemma bad_sweep : forallb (fun n => bad_ok (N.of_nat n)) (seq 0 128) = true.
Proof. vm_compute. reflexivity. Qed.
Lemma bad_all c : bad_ok c = true.
Proof.
  destruct (N.ltb_spec c 128) as [H|H].
  - pose proof bad_sweep as S. rewrite forallb_forall in S.
    specialize (S (N.to_nat c)). rewrite N2Nat.id in S. apply S. apply in_seq. lia.
  - unfold bad_ok. destruct (hex_value c); [reflexivity|].
    unfold low_nibble_narrow, low_nibble_wide, high_nibble_narrow, high_nibble_wide.
    repeat rewrite (proj2 (N.eqb_neq c _)) by (vm_compute (ch _); lia). reflexivity.
Qed.
Lemma nib_none w c : hex_value c = None -> low_nibble w c = 255 /\ high_nibble w c = 255.
Proof.
  intros H. pose proof (bad_all c) as B. unfold bad_ok in B. rewrite H in B.
  repeat rewrite andb_true_iff in B. repeat rewrite N.eqb_eq in B. destruct w; cbn [low_nibble high_nibble]; tauto.
Qed.
Lemma lor_255 x : x < 256 -> N.lor 255 x = 255 /\ N.lor x 255 = 255.
Proof.
  intros H. assert (E : N.lor 255 x = 255); [|split; [exact E|now rewrite N.lor_comm]].
  change 255 with (N.ones 8). rewrite N.lor_comm. apply N.lor_ones_low. destruct (N.eq_dec x 0) as [->|Z]; [reflexivity|].
  apply N.log2_lt_pow2; [lia|exact H].
Qed.
Definition ub (w : cwidth) (h l : N) : byte := byte_of_N (N.lor (high_nibble w h) (low_nibble w l)).
Lemma ub_pair w h l : pair_byte h l (ub w h l).
Proof.
  unfold pair_byte, ub. destruct (hex_value h) as [x|] eqn:H.
  - destruct (nib_some w h x H) as (Bx & _ & Hx). destruct (hex_value l) as [y|] eqn:L.
    + rewrite (nib_or w h l); [|unfold is_hex; congruence..]. unfold hv. rewrite H, L. apply to_N_byte_small.
      destruct (nib_some w l y L) as (By & _). lia.
    + destruct (nib_none w l L) as [-> _]. rewrite Hx, (proj2 (lor_255 (16 * x) ltac:(lia))). reflexivity.
  - destruct (nib_none w h H) as [_ ->].
    assert (B : low_nibble w l < 256).
    { destruct (hex_value l) as [y|] eqn:L; [destruct (nib_some w l y L) as (? & -> & _); lia|destruct (nib_none w l L) as [-> _]; lia]. }
    rewrite (proj1 (lor_255 _ B)). reflexivity.
Qed.
Fixpoint udecode (w : cwidth) (n : nat) (s : list N) : list byte :=
  match n, s with S n', h :: l :: r => ub w h l :: udecode w n' r | _, _ => [] end.
Lemma udecode_pairs w : forall n s, (2 * n <= length s)%nat -> pairs s n (udecode w n s).
Proof.
  induction n as [|n IH]; intros s L.
  - split; [reflexivity|]. intros i H. lia.
  - destruct s as [|h [|l s]]; try (cbn [length] in L; lia). destruct (IH s ltac:(cbn [length] in L; lia)) as [A B].
    cbn [udecode]. split; [cbn [length]; now rewrite A|]. intros [|i] H.
    + exists h, l, (ub w h l). cbn. repeat split. apply ub_pair.
    + destruct (B i ltac:(lia)) as (h' & l' & b & E1 & E2 & E3 & E4). exists h', l', b.
      replace (2 * S i)%nat with (S (S (2 * i))) by lia. replace (S (S (2 * i)) + 1)%nat with (S (S (2 * i + 1))) by lia. auto.
Qed.
Lemma from_hex_loop_any w : forall n s pre, (2 * n <= length s)%nat -> from_hex_loop w (pre ++ s) n (lenN pre) = Ok (udecode w n s).
Proof.
  induction n as [|n IH]; intros s pre L; [reflexivity|].
  destruct s as [|h [|l s]]; try (cbn [length] in L; lia).
  cbn [from_hex_loop udecode]. rewrite deref_app, deref_app1. cbn [obind].
  replace (pre ++ h :: l :: s) with ((pre ++ [h; l]) ++ s) by now rewrite <- app_assoc.
  replace (lenN pre + 2) with (lenN (pre ++ [h; l])) by (rewrite lenN_app; reflexivity).
  rewrite IH by (cbn [length] in L; lia). reflexivity.
Qed.
Lemma deref_out s pos : lenN s <= pos -> deref s pos = UB.
Proof.
  intros H. unfold deref. destruct (nth_error s (N.to_nat pos)) eqn:E; [|reflexivity].
  assert (N.to_nat pos < length s)%nat by (apply nth_error_Some; congruence). unfold lenN in H. lia.
Qed.
Lemma from_hex_loop_short w : forall n s pre, (length s < 2 * n)%nat -> from_hex_loop w (pre ++ s) n (lenN pre) = UB.
Proof.
  induction n as [|n IH]; intros s pre L; [lia|]. destruct s as [|h [|l s]].
  - cbn [from_hex_loop]. rewrite deref_out by (rewrite app_nil_r; lia). reflexivity.
  - cbn [from_hex_loop]. rewrite deref_app. cbn [obind]. rewrite deref_out; [reflexivity|]. rewrite lenN_app. cbn. lia.
  - cbn [from_hex_loop]. rewrite deref_app, deref_app1. cbn [obind].
    replace (pre ++ h :: l :: s) with ((pre ++ [h; l]) ++ s) by now rewrite <- app_assoc.
    replace (lenN pre + 2) with (lenN (pre ++ [h; l])) by (rewrite lenN_app; reflexivity).
    rewrite IH by (cbn [length] in L; lia). reflexivity.
Qed.
Lemma unsafe_loop_any w : forall n s pre, (2 * n <= length s)%nat -> unsafe_unhexlify_loop w (pre ++ s) n (lenN pre) = Ok (udecode w n s).
Proof.
  induction n as [|n IH]; intros s pre L; [reflexivity|].
  destruct s as [|h [|l s]]; try (cbn [length] in L; lia).
  cbn [unsafe_unhexlify_loop udecode]. rewrite sub_view_app. cbn [obind].
  unfold unsafe_from_hex_chars. pose proof (from_hex_loop_any w 1 [h; l] []) as X.
  cbn [app] in X. change (lenN (@nil N)) with 0 in X. rewrite X by (cbn; lia). clear X. cbn [obind udecode].
  replace (pre ++ h :: l :: s) with ((pre ++ [h; l]) ++ s) by now rewrite <- app_assoc.
  replace (lenN pre + 2) with (lenN (pre ++ [h; l])) by (rewrite lenN_app; reflexivity).
  rewrite IH by (cbn [length] in L; lia). reflexivity.
Qed.
Lemma unsafe_loop_short w : forall n s pre, (length s < 2 * n)%nat -> unsafe_unhexlify_loop w (pre ++ s) n (lenN pre) = UB.
Proof.
  assert (O : forall s pre, lenN s <= 1 -> sub_view (pre ++ s) (lenN pre) = UB).
  { intros s pre H. unfold sub_view. rewrite (proj2 (N.leb_gt _ _)); [reflexivity|]. rewrite lenN_app. lia. }
  induction n as [|n IH]; intros s pre L; [lia|]. destruct s as [|h [|l s]].
  - cbn [unsafe_unhexlify_loop]. rewrite O by (cbn; lia). reflexivity.
  - cbn [unsafe_unhexlify_loop]. rewrite O by (cbn; lia). reflexivity.
  - cbn [unsafe_unhexlify_loop]. rewrite sub_view_app. cbn [obind].
    unfold unsafe_from_hex_chars. pose proof (from_hex_loop_any w 1 [h; l] []) as X.
    cbn [app] in X. change (lenN (@nil N)) with 0 in X. rewrite X by (cbn; lia). clear X. cbn [obind udecode].
    replace (pre ++ h :: l :: s) with ((pre ++ [h; l]) ++ s) by now rewrite <- app_assoc.
    replace (lenN pre + 2) with (lenN (pre ++ [h; l])) by (rewrite lenN_app; reflexivity).
    rewrite IH by (cbn [length] in L; lia). reflexivity.
Qed.
Lemma unsafe_any w n s : (2 * n <= length s)%nat ->
  exists bs, unsafe_unhexlify w n s = Ok bs /\ unsafe_from_hex_chars w n s = Ok bs /\ pairs s n bs.
Proof.
  intros L. exists (udecode w n s). split; [exact (unsafe_loop_any w n s [] L)|]. split; [exact (from_hex_loop_any w n s [] L)|].
  now apply udecode_pairs.
Qed.
Lemma unsafe_short w n s : (length s < 2 * n)%nat -> unsafe_unhexlify w n s = UB /\ unsafe_from_hex_chars w n s = UB.
Proof. intros L. split; [exact (unsafe_loop_short w n s [] L)|exact (from_hex_loop_short w n s [] L)]. Qed.
Lemma unsafe_agrees w n s bs : unhexlify_n w n s = Ok bs -> unsafe_unhexlify w n s = Ok bs /\ unsafe_from_hex_chars w n s = Ok bs.
Proof.
  intros H. assert (A : unsafe_unhexlify w n s = Ok bs /\ (length s = 2 * n)%nat).
  { unfold unhexlify_n in H. destruct (negb (lenN s =? 2 * N.of_nat n)) eqn:E; [discriminate|]. apply len_check in E.
    destruct (negb _); [discriminate|auto]. }
  destruct A as [A L]. split; [exact A|]. destruct (unsafe_any w n s ltac:(lia)) as (x & B & C & _). congruence.
Qed.

(** ** Laws of the text *)
Lemma decode_app s t : forall n, length s = (2 * n)%nat -> decode (s ++ t) = decode s ++ decode t.
Proof.
  intros n; revert s; induction n as [|n IH]; intros s L.
  - destruct s; [reflexivity|discriminate].
  - destruct s as [|h [|l s]]; try (cbn [length] in L; lia). cbn [app decode]. now rewrite IH by (cbn [length] in L; lia).
Qed.
Lemma hexlify_app a b : exists s t, hexlify a = Ok s /\ hexlify b = Ok t /\ hexlify (a ++ b) = Ok (s ++ t).
Proof. exists (flat_map enc1 a), (flat_map enc1 b). rewrite !hexlify_ok, flat_map_app. auto. Qed.
Lemma unhexlify_ok w s n : length s = (2 * n)%nat ->
  (Forall is_hex s /\ unhexlify w s = Ok (decode s)) \/ (~ Forall is_hex s /\ unhexlify w s = Throw invalid_argument).
Proof.
  intros E. pose proof (unhexlify_char w s) as C. cbn zeta in C. rewrite E, Nat.div2_double, firstn_all2 in C by lia. exact C.
Qed.
Lemma unhexlify_app w s t : Nat.Even (length s) -> unhexlify w (s ++ t) =
  match unhexlify w s with Ok a => match unhexlify w t with Ok b => Ok (a ++ b) | e => e end | e => e end.
Proof.
  intros [n E]. pose proof (unhexlify_ok w s n E) as S. pose proof (unhexlify_char w t) as T. pose proof (unhexlify_char w (s ++ t)) as U.
  cbn zeta in T, U. rewrite app_length, E in U.
  assert (D : Nat.div2 (2 * n + length t) = (n + Nat.div2 (length t))%nat).
  { rewrite !Nat.div2_div. rewrite (Nat.mul_comm 2 n). apply Nat.div_add_l. lia. }
  rewrite D in U. rewrite firstn_app, firstn_all2 in U by lia.
  replace (2 * (n + Nat.div2 (length t)) - length s)%nat with (2 * Nat.div2 (length t))%nat in U by lia.
  rewrite Forall_app, (decode_app _ _ n E) in U.
  destruct U as [[U ->]|[U ->]], S as [[S ->]|[S ->]]; [| tauto | |reflexivity]; destruct T as [[T ->]|[T ->]]; tauto.
Qed.

Lemma hex_value_upper c : hex_value (upper_hex c) = hex_value c.
Proof.
  unfold upper_hex. destruct ((97 <=? c) && (c <=? 102)) eqn:E; [|reflexivity].
  apply andb_true_iff in E. rewrite !N.leb_le in E. unfold hex_value.
  repeat match goal with |- context [?a <=? ?b] => destruct (N.leb_spec a b) end; cbn [andb]; try lia; try (f_equal; lia); reflexivity.
Qed.
Lemma is_hex_upper c : is_hex (upper_hex c) <-> is_hex c.
Proof. unfold is_hex. now rewrite hex_value_upper. Qed.
Lemma Forall_upper s : Forall is_hex (map upper_hex s) <-> Forall is_hex s.
Proof. rewrite Forall_map. split; apply Forall_impl; intros a; apply is_hex_upper. Qed.
Lemma decode_upper : forall n s, (length s <= n)%nat -> decode (map upper_hex s) = decode s.
Proof.
  induction n as [|n IH]; intros [|h [|l s]] L; try reflexivity; cbn [length] in L; try lia.
  cbn [map decode]. unfold hv. rewrite !hex_value_upper. now rewrite IH by lia.
Qed.
Lemma unhexlify_upper w s : unhexlify w (map upper_hex s) = unhexlify w s.
Proof.
  pose proof (unhexlify_char w s) as A. pose proof (unhexlify_char w (map upper_hex s)) as B. cbn zeta in A, B.
  rewrite map_length, firstn_map, Forall_upper in B. rewrite (decode_upper _ _ (le_n _)) in B.
  destruct A as [[A ->]|[A ->]], B as [[B ->]|[B ->]]; tauto.
Qed.
Lemma upper_digit_hv c : is_hex c -> upper_digit (hv c) = upper_hex c.
Proof.
  intros H. unfold is_hex in H. unfold hv. destruct (hex_value c) as [v|] eqn:E; [|congruence]. clear H.
  unfold hex_value in E. unfold upper_digit, upper_hex.
  repeat match goal with H : context [?a <=? ?b] |- _ => destruct (N.leb_spec a b) end; cbn [andb] in E; try discriminate; injection E as <-;
  repeat match goal with |- context [?a <? ?b] => destruct (N.ltb_spec a b) | |- context [?a <=? ?b] => destruct (N.leb_spec a b) end; cbn [andb]; lia.
Qed.
Lemma enc_decode : forall n s, length s = (2 * n)%nat -> Forall is_hex s -> flat_map enc1 (decode s) = map upper_hex s.
Proof.
  induction n as [|n IH]; intros s L F.
  - destruct s; [reflexivity|discriminate].
  - destruct s as [|h [|l s]]; try (cbn [length] in L; lia). inversion F as [|? ? Fh F1]; subst. inversion F1 as [|? ? Fl F2]; subst.
    cbn [decode flat_map map enc1 app]. pose proof (hv_lt h). pose proof (hv_lt l). rewrite to_N_byte_small by lia.
    replace ((16 * hv h + hv l) / 16) with (hv h) by (apply N.div_unique with (hv l); lia).
    replace ((16 * hv h + hv l) mod 16) with (hv l) by (apply N.mod_unique with (hv h); lia).
    rewrite !upper_digit_hv by assumption. now rewrite IH by (try assumption; cbn [length] in L; lia).
Qed.
Lemma unhexlify_hexlify w s bs : Nat.Even (length s) -> unhexlify w s = Ok bs -> hexlify bs = Ok (map upper_hex s).
Proof.
  intros [n E] H. destruct (unhexlify_ok w s n E) as [[F K]|[F K]]; rewrite K in H; [|discriminate]. injection H as <-.
  rewrite hexlify_ok. f_equal. now apply enc_decode with n.
Qed.

(** Order *)
Lemma dict_irrefl_head x a y b : dict_less (x :: a) (y :: b) <-> x < y \/ (x = y /\ dict_less a b).
Proof.
  split.
  - intros H. inversion H; subst; auto.
  - intros [H|[-> H]]; [now apply less_here|now apply less_later].
Qed.
Lemma upper_digit_lt x y : x < 16 -> y < 16 -> (upper_digit x < upper_digit y <-> x < y) /\ (upper_digit x = upper_digit y <-> x = y).
Proof. intros. unfold upper_digit. destruct (N.ltb_spec x 10), (N.ltb_spec y 10); lia. Qed.
Lemma enc_order a : forall b, dict_less (flat_map enc1 a) (flat_map enc1 b) <-> dict_less (map Byte.to_N a) (map Byte.to_N b).
Proof.
  induction a as [|x a IH]; intros [|y b]; cbn [flat_map map enc1 app].
  - split; intros H; inversion H.
  - split; constructor.
  - split; intros H; inversion H.
  - rewrite !dict_irrefl_head, IH. pose proof (Byte.to_N_bounded x) as Bx. pose proof (Byte.to_N_bounded y) as By.
    set (p := Byte.to_N x) in *. set (q := Byte.to_N y) in *.
    pose proof (N.div_mod p 16 ltac:(lia)). pose proof (N.div_mod q 16 ltac:(lia)).
    pose proof (N.mod_lt p 16 ltac:(lia)). pose proof (N.mod_lt q 16 ltac:(lia)).
    destruct (upper_digit_lt (p / 16) (q / 16)) as [A1 A2]; [apply N.div_lt_upper_bound; lia..|].
    destruct (upper_digit_lt (p mod 16) (q mod 16)) as [B1 B2]; [lia..|].
    rewrite A1, A2, B1, B2. split; intros C.
    + destruct C as [C|[C [D|[D F]]]]; [left; nia|left; lia|right; split; [lia|exact F]].
    + destruct C as [C|[C F]].
      * destruct (N.lt_trichotomy (p / 16) (q / 16)) as [D|[D|D]]; [now left|right; split; [exact D|left; lia]|exfalso; nia].
      * right. rewrite C. auto.
Qed.
Lemma hexlify_order a b s t : hexlify a = Ok s -> hexlify b = Ok t -> (dict_less s t <-> dict_less (map Byte.to_N a) (map Byte.to_N b)) /\ (s = t <-> a = b).
Proof.
  rewrite !hexlify_ok. intros E F. injection E as <-. injection F as <-. split; [apply enc_order|]. split; [|now intros ->].
  intros E. destruct (denotes_decode _ _ (flat_enc_denotes a)) as [A _]. destruct (denotes_decode _ _ (flat_enc_denotes b)) as [B _].
  rewrite A, B. now rewrite E.
Qed.
