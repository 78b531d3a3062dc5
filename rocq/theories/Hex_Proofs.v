(** Proofs about [Hex_Model]. *)
From Verif Require Import Base BaseFacts Hex_Model Hex_Spec.
From Coq Require Import Ascii String List. Import ListNotations.
Open Scope N_scope. Open Scope list_scope.

Definition nib_ok (c : N) : bool :=
  match hex_value c with
  | Some v => (v <? 16) && (low_nibble_narrow c =? v) && (low_nibble_wide c =? v)
              && (high_nibble_narrow c =? 16 * v) && (high_nibble_wide c =? 16 * v)
              && existsb (N.eqb c) valid_hex_chars && existsb (N.eqb c) valid_hex_wchars
  | None => negb (existsb (N.eqb c) valid_hex_chars) && negb (existsb (N.eqb c) valid_hex_wchars)
  end.
Lemma nib_sweep : forallb (fun n => nib_ok (N.of_nat n)) (seq 0 128) = true.
Proof. vm_compute. reflexivity. Qed.
Lemma nib_all c : nib_ok c = true.
Proof.
  destruct (N.ltb_spec c 128) as [H|H].
  - pose proof nib_sweep as S. rewrite forallb_forall in S.
    specialize (S (N.to_nat c)). rewrite N2Nat.id in S. apply S. apply in_seq. lia.
  - unfold nib_ok. replace (hex_value c) with (@None N).
    + unfold valid_hex_chars, valid_hex_wchars. cbn [codes existsb].
      repeat rewrite (proj2 (N.eqb_neq c _)) by (vm_compute (N_of_ascii _); lia). reflexivity.
    + unfold hex_value.
      repeat match goal with |- context [?a <=? ?b] => destruct (N.leb_spec a b) end; cbn [andb]; try reflexivity; lia.
Qed.

Lemma nib_some w c v : hex_value c = Some v ->
  v < 16 /\ low_nibble w c = v /\ high_nibble w c = 16 * v.
Proof.
  intros H. pose proof (nib_all c) as N. unfold nib_ok in N. rewrite H in N.
  repeat rewrite andb_true_iff in N. repeat rewrite N.eqb_eq in N. rewrite N.ltb_lt in N.
  destruct w; cbn [low_nibble high_nibble]; intuition.
Qed.

Lemma valid_char w c :
  existsb (N.eqb c) (match w with narrow => valid_hex_chars | wide => valid_hex_wchars end) = true <-> is_hex c.
Proof.
  pose proof (nib_all c) as N. unfold nib_ok in N. unfold is_hex. destruct (hex_value c).
  - repeat rewrite andb_true_iff in N. destruct w; split; try discriminate; intuition.
  - rewrite andb_true_iff in N. repeat rewrite negb_true_iff in N. destruct N as [A B].
    destruct w; [rewrite A|rewrite B]; split; try discriminate; congruence.
Qed.

Lemma all_valid w s : is_all_valid_hex_chars w s = true <-> Forall is_hex s.
Proof.
  unfold is_all_valid_hex_chars. rewrite forallb_forall, Forall_forall.
  split; intros H x I; apply (valid_char w); auto.
Qed.

Lemma all_valid_false w s : is_all_valid_hex_chars w s = false <-> ~ Forall is_hex s.
Proof.
  rewrite <- (all_valid w). destruct (is_all_valid_hex_chars w s); split; congruence.
Qed.

(** Pairs of digits, read left to right. *)
Definition hv (c : N) : N := match hex_value c with Some v => v | None => 0 end.
Fixpoint decode (s : list N) : list byte :=
  match s with h :: l :: r => byte_of_N (16 * hv h + hv l) :: decode r | _ => [] end.

Lemma hv_some c : is_hex c -> hex_value c = Some (hv c).
Proof. unfold is_hex, hv. destruct (hex_value c); congruence. Qed.
Lemma hv_lt c : hv c < 16.
Proof. unfold hv. destruct (hex_value c) eqn:E; [|lia]. apply (nib_some narrow) in E. lia. Qed.

Lemma nib_or w h l : is_hex h -> is_hex l ->
  byte_of_N (N.lor (high_nibble w h) (low_nibble w l)) = byte_of_N (16 * hv h + hv l).
Proof.
  intros H L. destruct (nib_some w h _ (hv_some _ H)) as [_ [_ ->]].
  destruct (nib_some w l _ (hv_some _ L)) as [B [-> _]].
  f_equal. replace (16 * hv h) with (N.shiftl (hv h) 4) by (rewrite N.shiftl_mul_pow2; lia).
  rewrite <- N.lxor_lor, <- N.add_nocarry_lxor; [reflexivity| |];
  (apply N.bits_inj; intros i; rewrite N.land_spec, N.bits_0;
   destruct (N.ltb_spec i 4);
   [rewrite N.shiftl_spec_low by lia; reflexivity|
    apply andb_false_iff; right; destruct (N.eq_dec (hv l) 0) as [->|Z]; [apply N.bits_0|];
    apply N.bits_above_log2; apply N.log2_lt_pow2; [lia|];
    apply N.lt_le_trans with (2 ^ 4); [change (2 ^ 4) with 16; exact B|apply N.pow_le_mono_r; lia]]).
Qed.

Lemma deref_app pre c s : deref (pre ++ c :: s) (lenN pre) = Ok c.
Proof.
  unfold deref, lenN. rewrite Nat2N.id, nth_error_app2, Nat.sub_diag by lia. reflexivity.
Qed.
Lemma deref_app1 pre c d s : deref (pre ++ c :: d :: s) (lenN pre + 1) = Ok d.
Proof.
  replace (pre ++ c :: d :: s) with ((pre ++ [c]) ++ d :: s) by now rewrite <- app_assoc.
  replace (lenN pre + 1) with (lenN (pre ++ [c])) by (rewrite lenN_app; reflexivity).
  apply deref_app.
Qed.

Lemma from_hex_loop_ok w s : forall n pre, length s = (2 * n)%nat -> Forall is_hex s ->
  from_hex_loop w (pre ++ s) n (lenN pre) = Ok (decode s).
Proof.
  intros n; revert s; induction n as [|n IH]; intros s pre L F.
  - destruct s; [reflexivity|discriminate].
  - destruct s as [|h [|l s]]; try (cbn [length] in L; lia).
    cbn [from_hex_loop]. rewrite deref_app, deref_app1. cbn [obind].
    inversion F as [|? ? Fh F1]; subst. inversion F1 as [|? ? Fl F2]; subst.
    rewrite nib_or by assumption.
    replace (pre ++ h :: l :: s) with ((pre ++ [h; l]) ++ s) by now rewrite <- app_assoc.
    replace (lenN pre + 2) with (lenN (pre ++ [h; l])) by (rewrite lenN_app; reflexivity).
    rewrite IH by (try assumption; cbn [length] in L; lia). reflexivity.
Qed.

Lemma sub_view_app pre h l s : sub_view (pre ++ h :: l :: s) (lenN pre) = Ok [h; l].
Proof.
  unfold sub_view. rewrite (proj2 (N.leb_le _ _)).
  - rewrite dropN_app_exact by reflexivity. reflexivity.
  - rewrite lenN_app, !lenN_cons. lia.
Qed.

Lemma unsafe_unhexlify_loop_ok w s : forall n pre, length s = (2 * n)%nat -> Forall is_hex s ->
  forall post, unsafe_unhexlify_loop w (pre ++ s ++ post) n (lenN pre) = Ok (decode s).
Proof.
  intros n; revert s; induction n as [|n IH]; intros s pre L F post.
  - destruct s; [reflexivity|discriminate].
  - destruct s as [|h [|l s]]; try (cbn [length] in L; lia).
    cbn [unsafe_unhexlify_loop app]. rewrite sub_view_app. cbn [obind].
    inversion F as [|? ? Fh F1]; subst. inversion F1 as [|? ? Fl F2]; subst.
    unfold unsafe_from_hex_chars. pose proof (from_hex_loop_ok w [h; l] 1 []) as X.
    cbn [app] in X. change (lenN (@nil N)) with 0 in X. rewrite X; auto. clear X. cbn [obind decode].
    replace (pre ++ h :: l :: s ++ post) with ((pre ++ [h; l]) ++ s ++ post) by now rewrite <- app_assoc.
    replace (lenN pre + 2) with (lenN (pre ++ [h; l])) by (rewrite lenN_app; reflexivity).
    rewrite IH by (try assumption; cbn [length] in L; lia). reflexivity.
Qed.

Lemma decode_length s : length (decode s) = Nat.div2 (length s).
Proof.
  assert (H : forall n s, (length s <= n)%nat -> length (decode s) = Nat.div2 (length s)).
  { induction n as [|n IH]; intros [|h [|l r]] L; try reflexivity; cbn [length] in L; try lia.
    cbn [decode length Nat.div2]. rewrite IH by lia. reflexivity. }
  apply (H (length s)); lia.
Qed.

Lemma decode_nth s : forall i b, nth_error (decode s) i = Some b ->
  exists h l, nth_error s (2 * i)%nat = Some h /\ nth_error s (2 * i + 1)%nat = Some l /\
              b = byte_of_N (16 * hv h + hv l).
Proof.
  assert (H : forall n s, (length s <= n)%nat -> forall i b, nth_error (decode s) i = Some b ->
    exists h l, nth_error s (2 * i)%nat = Some h /\ nth_error s (2 * i + 1)%nat = Some l /\
              b = byte_of_N (16 * hv h + hv l)).
  { induction n as [|n IH]; intros [|h [|l r]] L [|i] b E; cbn [decode nth_error] in E; try discriminate;
      cbn [length] in L; try lia.
    - injection E as <-. exists h, l. repeat split.
    - destruct (IH r ltac:(lia) i b E) as (h' & l' & A & B & C).
      exists h', l'. replace (2 * S i)%nat with (S (S (2 * i))) by lia.
      replace (S (S (2 * i)) + 1)%nat with (S (S (2 * i + 1))) by lia. cbn [nth_error]. auto. }
  apply (H (length s)); lia.
Qed.

Lemma to_N_byte_small n : n < 256 -> Byte.to_N (byte_of_N n) = n.
Proof. intros H. rewrite to_N_byte_of_N. now apply N.mod_small. Qed.

Lemma decode_denotes s n : length s = (2 * n)%nat -> Forall is_hex s -> denotes s (decode s).
Proof.
  intros L F. assert (LD : length (decode s) = n).
  { rewrite decode_length, L. now rewrite Nat.div2_double. }
  split; [lia|]. intros i b E. destruct (decode_nth s i b E) as (h & l & A & B & ->).
  rewrite Forall_forall in F. exists h, l, (hv h), (hv l).
  repeat split; auto.
  - apply hv_some, F; eauto using nth_error_In.
  - apply hv_some, F; eauto using nth_error_In.
  - apply to_N_byte_small. pose proof (hv_lt h); pose proof (hv_lt l); lia.
Qed.

Lemma denotes_decode s bs : denotes s bs -> bs = decode s /\ Forall is_hex s.
Proof.
  intros [L H]. assert (F : Forall is_hex s).
  { apply Forall_forall. intros c I. apply In_nth_error in I. destruct I as [k K].
    assert (k < length s)%nat by (apply nth_error_Some; congruence).
    pose proof (Nat.div_mod k 2 ltac:(lia)) as D. pose proof (Nat.mod_upper_bound k 2 ltac:(lia)) as M.
    destruct (nth_error bs (k / 2)) as [b|] eqn:E.
    2:{ apply nth_error_None in E. lia. }
    destruct (H _ _ E) as (h & l & a & b' & A & B & C & D' & _).
    unfold is_hex. assert (k = 2 * (k/2) \/ k = 2 * (k/2) + 1)%nat as [X|X] by lia; rewrite <- X in *; congruence. }
  split; [|exact F]. apply nth_error_ext. intros i.
  pose proof (decode_denotes s (length bs) L F) as [L' H'].
  destruct (nth_error bs i) as [b|] eqn:E.
  - destruct (nth_error (decode s) i) as [b'|] eqn:E'.
    + destruct (H _ _ E) as (h & l & a & c & A & B & C & D & G).
      destruct (H' _ _ E') as (h' & l' & a' & c' & A' & B' & C' & D' & G').
      f_equal. apply to_N_inj. rewrite A in A'; rewrite B in B'. injection A' as <-; injection B' as <-.
      rewrite C in C'; rewrite D in D'. injection C' as <-; injection D' as <-. lia.
    + apply nth_error_None in E'. assert (i < length bs)%nat by (apply nth_error_Some; congruence). lia.
  - symmetry. apply nth_error_None. apply nth_error_None in E. lia.
Qed.

Lemma denotes_iff (s : list N) (n : nat) : (exists bs : list byte, length bs = n /\ denotes s bs) <-> (length s = 2 * n)%nat /\ Forall is_hex s.
Proof.
  split.
  - intros (bs & L & D). split; [destruct D; lia|]. now apply denotes_decode in D.
  - intros (L & F). exists (decode s). split; [|eapply decode_denotes; eauto].
    rewrite decode_length, L. apply Nat.div2_double.
Qed.

(** ** Exact characterisations *)
Lemma len_check (s : list N) (n : nat) : negb (lenN s =? 2 * N.of_nat n) = false <-> length s = (2 * n)%nat.
Proof. unfold lenN. rewrite negb_false_iff, N.eqb_eq. lia. Qed.

Lemma from_hex_chars_char w n s :
  match from_hex_chars w n s with
  | Ok bs => length bs = n /\ denotes s bs
  | Throw e => e = invalid_argument /\ ~ exists bs, length bs = n /\ denotes s bs
  | _ => False
  end.
Proof.
  unfold from_hex_chars. destruct (negb (lenN s =? 2 * N.of_nat n)) eqn:L.
  { split; [reflexivity|]. rewrite denotes_iff. intros [L' _]. apply len_check in L'. congruence. }
  apply len_check in L. destruct (is_all_valid_hex_chars w s) eqn:V; cbn [negb].
  - apply all_valid in V. unfold unsafe_from_hex_chars.
    pose proof (from_hex_loop_ok w s n [] L V) as X. cbn [app] in X. change (lenN (@nil N)) with 0 in X.
    rewrite X. split; [|eapply decode_denotes; eauto]. rewrite decode_length, L. apply Nat.div2_double.
  - apply all_valid_false in V. split; [reflexivity|]. rewrite denotes_iff. tauto.
Qed.

Lemma try_from_hex_chars_char w n s :
  match try_from_hex_chars w n s with
  | Ok (RVal bs) => from_hex_chars w n s = Ok bs
  | Ok (RErr e) => from_hex_chars w n s = Throw invalid_argument /\
      e = (if (length s =? 2 * n)%nat then invalid_hex_char else invalid_sequence_length)
  | _ => False
  end.
Proof.
  pose proof (from_hex_chars_char w n s) as H.
  unfold try_from_hex_chars, from_hex_chars in *. destruct (negb (lenN s =? 2 * N.of_nat n)) eqn:L.
  { split; [reflexivity|]. destruct (Nat.eqb_spec (length s) (2 * n)) as [E|E]; [|reflexivity].
    apply len_check in E. congruence. }
  apply len_check in L. destruct (is_all_valid_hex_chars w s) eqn:V; cbn [negb] in *.
  - destruct (unsafe_from_hex_chars w n s); cbn; solve [reflexivity | tauto | destruct H as [_ H]; destruct H; apply denotes_iff; split; [exact L|now apply (all_valid w)]].
  - split; [reflexivity|]. now rewrite (proj2 (Nat.eqb_eq _ _) L).
Qed.

Lemma unsafe_unhexlify_ok w n s : length s = (2 * n)%nat -> Forall is_hex s ->
  unsafe_unhexlify w n s = Ok (decode s).
Proof.
  intros L F. pose proof (unsafe_unhexlify_loop_ok w s n [] L F []) as X.
  cbn [app] in X. rewrite app_nil_r in X. exact X.
Qed.

Lemma unhexlify_n_char w n s :
  match unhexlify_n w n s with
  | Ok bs => length bs = n /\ denotes s bs
  | Throw e => e = invalid_argument /\ ~ exists bs, length bs = n /\ denotes s bs
  | _ => False
  end.
Proof.
  unfold unhexlify_n. destruct (negb (lenN s =? 2 * N.of_nat n)) eqn:L.
  { split; [reflexivity|]. rewrite denotes_iff. intros [L' _]. apply len_check in L'. congruence. }
  apply len_check in L. destruct (is_all_valid_hex_chars w s) eqn:V; cbn [negb].
  - apply all_valid in V. rewrite unsafe_unhexlify_ok by assumption.
    split; [|eapply decode_denotes; eauto]. rewrite decode_length, L. apply Nat.div2_double.
  - apply all_valid_false in V. split; [reflexivity|]. rewrite denotes_iff. tauto.
Qed.

Lemma try_unhexlify_n_char w n s :
  match try_unhexlify_n w n s with
  | Ok (RVal bs) => unhexlify_n w n s = Ok bs
  | Ok (RErr e) => unhexlify_n w n s = Throw invalid_argument /\
      e = (if (length s =? 2 * n)%nat then invalid_hex_char else invalid_sequence_length)
  | _ => False
  end.
Proof.
  pose proof (unhexlify_n_char w n s) as H.
  unfold try_unhexlify_n, unhexlify_n in *. destruct (negb (lenN s =? 2 * N.of_nat n)) eqn:L.
  { split; [reflexivity|]. destruct (Nat.eqb_spec (length s) (2 * n)) as [E|E]; [|reflexivity].
    apply len_check in E. congruence. }
  apply len_check in L. destruct (is_all_valid_hex_chars w s) eqn:V; cbn [negb] in *.
  - destruct (unsafe_unhexlify w n s); cbn; solve [reflexivity | tauto | destruct H as [_ H]; destruct H; apply denotes_iff; split; [exact L|now apply (all_valid w)]].
  - split; [reflexivity|]. now rewrite (proj2 (Nat.eqb_eq _ _) L).
Qed.

(** ** Dynamic unhexlify *)
Lemma from_hex_1_ok w h l : is_hex h -> is_hex l -> from_hex_chars w 1 [h; l] = Ok (decode [h; l]).
Proof.
  intros H L. pose proof (from_hex_chars_char w 1 [h; l]) as C.
  destruct (from_hex_chars w 1 [h; l]).
  - destruct C as [_ D]. apply denotes_decode in D. now destruct D as [-> _].
  - exfalso. destruct C as [_ C]. apply C, denotes_iff. auto.
  - contradiction. - contradiction. - contradiction.
Qed.
Lemma from_hex_1_bad w h l : ~ (is_hex h /\ is_hex l) -> from_hex_chars w 1 [h; l] = Throw invalid_argument.
Proof.
  intros H. pose proof (from_hex_chars_char w 1 [h; l]) as C.
  destruct (from_hex_chars w 1 [h; l]); try contradiction.
  - destruct C as [_ D]. apply denotes_decode in D. destruct D as [_ F]. inversion F as [|? ? A B]; subst.
    inversion B; subst. tauto.
  - now destruct C as [-> _].
Qed.

Lemma unhexlify_loop_char w : forall n s pre post, length s = (2 * n)%nat ->
  (Forall is_hex s /\ unhexlify_loop w (pre ++ s ++ post) n (lenN pre) = Ok (decode s)) \/
  (~ Forall is_hex s /\ unhexlify_loop w (pre ++ s ++ post) n (lenN pre) = Throw invalid_argument).
Proof.
  induction n as [|n IH]; intros s pre post L.
  - destruct s; [left; split; [constructor|reflexivity]|discriminate].
  - destruct s as [|h [|l s]]; try (cbn [length] in L; lia).
    cbn [unhexlify_loop app]. rewrite sub_view_app. cbn [obind].
    destruct (is_all_valid_hex_chars w [h; l]) eqn:V.
    + apply all_valid in V. inversion V as [|? ? Fh V1]; subst. inversion V1 as [|? ? Fl _]; subst.
      rewrite from_hex_1_ok by assumption. cbn [obind].
      replace (pre ++ h :: l :: s ++ post) with ((pre ++ [h; l]) ++ s ++ post) by now rewrite <- app_assoc.
      replace (lenN pre + 2) with (lenN (pre ++ [h; l])) by (rewrite lenN_app; reflexivity).
      destruct (IH s (pre ++ [h; l]) post ltac:(cbn [length] in L; lia)) as [[F ->]|[F ->]]; [left|right].
      * split; [auto|reflexivity].
      * split; [|reflexivity]. intros F'. inversion F' as [|? ? _ F1]; subst. inversion F1; subst. tauto.
    + apply all_valid_false in V. right. split.
      * intros F'. apply V. inversion F' as [|? ? ? F1]; subst. inversion F1; subst. auto.
      * rewrite from_hex_1_bad; [reflexivity|]. intros [A B]. apply V. auto.
Qed.

Lemma unhexlify_char w s :
  let even := firstn (2 * Nat.div2 (length s)) s in
  (Forall is_hex even /\ unhexlify w s = Ok (decode even)) \/
  (~ Forall is_hex even /\ unhexlify w s = Throw invalid_argument).
Proof.
  intros even. unfold unhexlify.
  replace (N.to_nat (lenN s / 2)) with (Nat.div2 (length s)).
  2:{ unfold lenN. rewrite Nat.div2_div. change 2 with (N.of_nat 2). rewrite <- Nat2N.inj_div, Nat2N.id. reflexivity. }
  assert (L : length even = (2 * Nat.div2 (length s))%nat).
  { unfold even. rewrite firstn_length. rewrite Nat.div2_div. pose proof (Nat.div_mod (length s) 2 ltac:(lia)). lia. }
  pose proof (unhexlify_loop_char w (Nat.div2 (length s)) even [] (skipn (2 * Nat.div2 (length s)) s) L) as H.
  cbn [app] in H.
  assert (E : even ++ skipn (2 * Nat.div2 (length s)) s = s) by apply firstn_skipn.
  rewrite E in H. exact H.
Qed.

(** ** hexlify *)
Definition enc1 (b : byte) : list N := [upper_digit (Byte.to_N b / 16); upper_digit (Byte.to_N b mod 16)].
Definition table_ok (n : N) : bool :=
  match nth_error upper_case_bytes (N.to_nat n) with
  | Some e => (table_char e 0 =? upper_digit (n / 16)) && (table_char e 1 =? upper_digit (n mod 16))
  | None => false
  end.
Lemma table_sweep : forallb (fun n => table_ok (N.of_nat n)) (seq 0 256) = true.
Proof. vm_compute. reflexivity. Qed.
Lemma table_all b : exists e, nth_error upper_case_bytes (N.to_nat (Byte.to_N b)) = Some e /\
  table_char e 0 = upper_digit (Byte.to_N b / 16) /\ table_char e 1 = upper_digit (Byte.to_N b mod 16).
Proof.
  pose proof table_sweep as S. rewrite forallb_forall in S. specialize (S (N.to_nat (Byte.to_N b))).
  rewrite N2Nat.id in S. pose proof (to_N_lt b). unfold table_ok in S.
  destruct (nth_error upper_case_bytes (N.to_nat (Byte.to_N b))) as [e|].
  - exists e. split; [reflexivity|]. rewrite andb_true_iff, !N.eqb_eq in S. apply S, in_seq. lia.
  - discriminate S. apply in_seq. lia.
Qed.

Lemma put_app pre c x post : put (pre ++ x :: post) (lenN pre) c = Ok (pre ++ c :: post).
Proof.
  unfold put. rewrite (proj2 (N.ltb_lt _ _)).
  - rewrite takeN_app_exact by reflexivity.
    replace (pre ++ x :: post) with ((pre ++ [x]) ++ post) by now rewrite <- app_assoc.
    rewrite dropN_app_exact by (rewrite lenN_app; reflexivity). reflexivity.
  - rewrite lenN_app, lenN_cons. lia.
Qed.

Lemma hexlify_loop_ok : forall bytes pre, 
  hexlify_loop bytes (pre ++ repeat 0 (2 * length bytes)) (lenN pre) = Ok (pre ++ flat_map enc1 bytes).
Proof.
  induction bytes as [|b r IH]; intros pre; [cbn; now rewrite app_nil_r|].
  cbn [hexlify_loop]. destruct (table_all b) as (e & -> & E0 & E1).
  replace (2 * length (b :: r))%nat with (S (S (2 * length r))) by (cbn [length]; lia).
  cbn [repeat]. rewrite put_app. cbn [obind].
  replace (pre ++ table_char e 0 :: 0 :: repeat 0 (2 * length r))
    with ((pre ++ [table_char e 0]) ++ 0 :: repeat 0 (2 * length r)) by now rewrite <- app_assoc.
  replace (lenN pre + 1) with (lenN (pre ++ [table_char e 0])) by (rewrite lenN_app; reflexivity).
  rewrite put_app. cbn [obind].
  replace ((pre ++ [table_char e 0]) ++ table_char e 1 :: repeat 0 (2 * length r))
    with ((pre ++ enc1 b) ++ repeat 0 (2 * length r)).
  2:{ unfold enc1. rewrite <- E0, <- E1, <- !app_assoc. reflexivity. }
  replace (lenN pre + 2) with (lenN (pre ++ enc1 b)) by (rewrite lenN_app; reflexivity).
  rewrite IH, <- app_assoc. reflexivity.
Qed.

Lemma hexlify_ok bytes : hexlify bytes = Ok (flat_map enc1 bytes).
Proof. exact (hexlify_loop_ok bytes []). Qed.

Lemma upper_digit_value n : n < 16 -> hex_value (upper_digit n) = Some n.
Proof.
  intros H. unfold upper_digit, hex_value. destruct (N.ltb_spec n 10).
  - rewrite (proj2 (N.leb_le 48 (48 + n))), (proj2 (N.leb_le (48 + n) 57)) by lia. cbn [andb]. f_equal. lia.
  - rewrite (proj2 (N.leb_le 48 (55 + n))), (proj2 (N.leb_gt (55 + n) 57)) by lia. cbn [andb].
    rewrite (proj2 (N.leb_le 65 (55 + n))), (proj2 (N.leb_le (55 + n) 70)) by lia. cbn [andb]. f_equal. lia.
Qed.

Lemma flat_enc_length bytes : length (flat_map enc1 bytes) = (2 * length bytes)%nat.
Proof. induction bytes; [reflexivity|]. cbn [flat_map]. rewrite app_length, IHbytes. cbn [enc1 length]. lia. Qed.

Lemma flat_enc_nth bytes : forall i b, nth_error bytes i = Some b ->
  nth_error (flat_map enc1 bytes) (2 * i)%nat = Some (upper_digit (Byte.to_N b / 16)) /\
  nth_error (flat_map enc1 bytes) (2 * i + 1)%nat = Some (upper_digit (Byte.to_N b mod 16)).
Proof.
  induction bytes as [|x r IH]; intros [|i] b E; try discriminate.
  - injection E as ->. split; reflexivity.
  - cbn [nth_error] in E. destruct (IH i b E) as [A B].
    replace (2 * S i)%nat with (S (S (2 * i))) by lia.
    replace (S (S (2 * i)) + 1)%nat with (S (S (2 * i + 1))) by lia.
    cbn [flat_map enc1 app nth_error]. auto.
Qed.

Lemma flat_enc_denotes bytes : denotes (flat_map enc1 bytes) bytes.
Proof.
  split; [apply flat_enc_length|]. intros i b E. destruct (flat_enc_nth bytes i b E) as [A B].
  pose proof (to_N_lt b).
  exists (upper_digit (Byte.to_N b / 16)), (upper_digit (Byte.to_N b mod 16)), (Byte.to_N b / 16), (Byte.to_N b mod 16).
  repeat split; auto.
  - apply upper_digit_value. apply N.div_lt_upper_bound; lia.
  - apply upper_digit_value. apply N.mod_lt. lia.
  - apply N.div_mod. lia.
Qed.

Lemma denotes_even s bs : denotes s bs -> firstn (2 * Nat.div2 (length s)) s = s.
Proof.
  intros [L _]. rewrite L, Nat.div2_double. now rewrite firstn_all2 by lia.
Qed.

Lemma unhexlify_denotes w s bs : denotes s bs -> unhexlify w s = Ok bs.
Proof.
  intros D. pose proof (denotes_even _ _ D) as E. apply denotes_decode in D. destruct D as [-> F].
  pose proof (unhexlify_char w s) as C. cbn zeta in C. rewrite E in C. destruct C as [[_ C]|[C _]]; [exact C|tauto].
Qed.

Lemma unhexlify_n_denotes w s bs : denotes s bs -> unhexlify_n w (length bs) s = Ok bs.
Proof.
  intros D. pose proof (unhexlify_n_char w (length bs) s) as C.
  destruct (unhexlify_n w (length bs) s) as [a| | | |]; try contradiction.
  - destruct C as [_ C]. apply denotes_decode in C, D. f_equal. destruct C, D; congruence.
  - exfalso. apply C. exists bs. auto.
Qed.

Lemma hexlify_roundtrip w bytes : exists s, hexlify bytes = Ok s /\
  unhexlify w s = Ok bytes /\ unhexlify_n w (length bytes) s = Ok bytes /\
  try_unhexlify_n w (length bytes) s = Ok (RVal bytes).
Proof.
  exists (flat_map enc1 bytes). pose proof (flat_enc_denotes bytes) as D.
  repeat split; auto using hexlify_ok, unhexlify_denotes, unhexlify_n_denotes.
  pose proof (try_unhexlify_n_char w (length bytes) (flat_map enc1 bytes)) as C.
  rewrite (unhexlify_n_denotes w _ _ D) in C.
  destruct (try_unhexlify_n w (length bytes) (flat_map enc1 bytes)) as [[]| | | |]; try contradiction.
  - now injection C as ->.
  - destruct C; discriminate.
Qed.

Lemma hexlify_text bytes : exists s, hexlify bytes = Ok s /\ length s = (2 * length bytes)%nat /\
  forall i b, nth_error bytes i = Some b ->
    nth_error s (2 * i)%nat = Some (upper_digit (Byte.to_N b / 16)) /\
    nth_error s (2 * i + 1)%nat = Some (upper_digit (Byte.to_N b mod 16)).
Proof.
  exists (flat_map enc1 bytes). auto using hexlify_ok, flat_enc_length, flat_enc_nth.
Qed.

Lemma unhexlify_even w s : Nat.Even (length s) ->
  match unhexlify w s with
  | Ok bs => denotes s bs
  | Throw e => e = invalid_argument /\ ~ exists bs, denotes s bs
  | _ => False
  end.
Proof.
  intros [n E]. pose proof (unhexlify_char w s) as C. cbn zeta in C.
  rewrite E, Nat.div2_double, firstn_all2 in C by lia.
  destruct C as [[F ->]|[F ->]].
  - eapply decode_denotes; eauto.
  - split; [reflexivity|]. intros [bs D]. apply denotes_decode in D. tauto.
Qed.

Lemma unhexlify_odd w s c : Nat.Even (length s) -> unhexlify w (s ++ [c]) = unhexlify w s.
Proof.
  intros [n E]. pose proof (unhexlify_char w s) as C. pose proof (unhexlify_char w (s ++ [c])) as C'.
  cbn zeta in C, C'. rewrite app_length, E in C'. cbn [length] in C'.
  replace (Nat.div2 (2 * n + 1)) with n in C'.
  2:{ rewrite Nat.div2_div. apply (Nat.div_unique _ 2 n 1); lia. }
  rewrite firstn_app, E, Nat.sub_diag, firstn_O, app_nil_r in C'.
  rewrite E, Nat.div2_double in C. rewrite firstn_all2 in C, C' by lia.
  destruct C as [[F ->]|[F ->]], C' as [[F' ->]|[F' ->]]; tauto.
Qed.

Lemma from_hex_of_text w bytes s : hexlify bytes = Ok s -> from_hex_chars w (length bytes) s = Ok bytes.
Proof.
  rewrite hexlify_ok. intros E; injection E as <-. pose proof (flat_enc_denotes bytes) as D.
  pose proof (from_hex_chars_char w (length bytes) (flat_map enc1 bytes)) as C.
  destruct (from_hex_chars w (length bytes) (flat_map enc1 bytes)); try contradiction.
  - destruct C as [_ C]. apply denotes_decode in C, D. f_equal. destruct C, D; congruence.
  - exfalso. apply C. eauto.
Qed.
