(** Proofs about where uuid objects may lie. *)
From Coq Require Import List Lia. Import ListNotations.
From Verif Require Import Base BaseFacts Io_Model Uuid_Model UuidPlace_Model UuidPlace_Spec.
Local Open Scope N_scope.

Lemma load_length mem n : forall a, length (load_bytes mem a n) = n.
Proof. induction n as [|n IH]; intros a; cbn [load_bytes length]; [reflexivity|]. now rewrite IH. Qed.
Lemma load_app mem n k : forall a, load_bytes mem a (n + k) = load_bytes mem a n ++ load_bytes mem (a + N.of_nat n) k.
Proof.
  induction n as [|n IH]; intros a; cbn [load_bytes Nat.add app].
  - now replace (a + N.of_nat 0) with a by lia.
  - rewrite IH. now replace (a + 1 + N.of_nat n) with (a + N.of_nat (S n)) by lia.
Qed.
Lemma load_ext mem mem' n : forall a,
  (forall x, a <= x < a + N.of_nat n -> mem x = mem' x) -> load_bytes mem a n = load_bytes mem' a n.
Proof.
  induction n as [|n IH]; intros a H; cbn [load_bytes]; [reflexivity|]. f_equal; [apply H; lia|].
  apply IH. intros x Hx. apply H. lia.
Qed.
Lemma store_outside bs : forall mem a x, x < a \/ a + lenN bs <= x -> store_bytes mem a bs x = mem x.
Proof.
  induction bs as [|b bs IH]; intros mem a x H; cbn [store_bytes]; [reflexivity|]. rewrite lenN_cons in H.
  rewrite IH by lia. destruct (x =? a) eqn:E; [apply N.eqb_eq in E; lia | reflexivity].
Qed.
Lemma store_load bs : forall mem a, load_bytes (store_bytes mem a bs) a (length bs) = bs.
Proof.
  induction bs as [|b bs IH]; intros mem a; cbn [store_bytes load_bytes length]; [reflexivity|]. f_equal; [|apply IH].
  rewrite store_outside by lia. now rewrite N.eqb_refl.
Qed.
Lemma load_holds mem bs : forall a, load_bytes mem a (length bs) = bs -> holds mem a bs.
Proof.
  induction bs as [|b bs IH]; intros a H i c Hi; [destruct i; discriminate Hi|].
  cbn [load_bytes length] in H. injection H as H1 H2. destruct i as [|i]; cbn [nth_error] in Hi.
  - injection Hi as <-. now replace (a + N.of_nat 0) with a by lia.
  - replace (a + N.of_nat (S i)) with (a + 1 + N.of_nat i) by lia. exact (IH _ H2 _ _ Hi).
Qed.
Lemma holds_load mem bs : forall a, holds mem a bs -> load_bytes mem a (length bs) = bs.
Proof.
  induction bs as [|b bs IH]; intros a H; cbn [load_bytes length]; [reflexivity|]. f_equal.
  - rewrite <- (H 0%nat b eq_refl). f_equal. lia.
  - apply IH. intros i c Hi. rewrite <- (H (S i) c Hi). f_equal. lia.
Qed.
Lemma nth_load mem i n : forall a, (i < n)%nat -> nth i (load_bytes mem a n) x00 = mem (a + N.of_nat i).
Proof.
  revert i. induction n as [|n IH]; intros i a H; [lia|]. destruct i as [|i]; cbn [load_bytes nth].
  - now replace (a + N.of_nat 0) with a by lia.
  - rewrite IH by lia. f_equal. lia.
Qed.

(** storing into a part of what is loaded *)
Lemma store_inside mem a n i bs : (i + length bs <= n)%nat ->
  load_bytes (store_bytes mem (a + N.of_nat i) bs) a n =
  firstn i (load_bytes mem a n) ++ bs ++ skipn (i + length bs) (load_bytes mem a n).
Proof.
  intros H. pose (k := (n - (i + length bs))%nat). replace n with (i + (length bs + k))%nat by (unfold k; lia).
  rewrite !load_app.
  rewrite (load_ext (store_bytes mem (a + N.of_nat i) bs) mem i a).
  2:{ intros x Hx. apply store_outside. lia. }
  rewrite store_load.
  rewrite (load_ext (store_bytes mem (a + N.of_nat i) bs) mem k).
  2:{ intros x Hx. apply store_outside. unfold lenN. lia. }
  rewrite firstn_app, load_length, Nat.sub_diag, firstn_O, app_nil_r, firstn_all2 by (rewrite load_length; lia).
  do 2 f_equal.
  rewrite app_assoc, skipn_app, app_length, !load_length.
  rewrite skipn_all2 by (rewrite app_length, !load_length; lia).
  now replace (i + length bs - (i + length bs))%nat with 0%nat by lia.
Qed.

Lemma place_iff al a : al <> 0 -> word_place al a = true <-> aligned al a.
Proof.
  intros Z0. unfold word_place. rewrite N.eqb_eq. split.
  - intros H. exists (a / al). pose proof (N.div_mod a al Z0). lia.
  - intros [k ->]. rewrite N.mul_comm. now apply N.mod_mul.
Qed.
Lemma al_nonzero al : word_alignment al -> al <> 0.
Proof. unfold word_alignment. lia. Qed.
Lemma place_second al a : word_alignment al -> word_place al (a + 8) = word_place al a.
Proof.
  intros A. unfold word_place. f_equal.
  destruct A as [-> | [-> | [-> | ->]]].
  - now rewrite !N.mod_1_r.
  - replace (a + 8) with (a + 4 * 2) by lia. now rewrite N.mod_add by lia.
  - replace (a + 8) with (a + 2 * 4) by lia. now rewrite N.mod_add by lia.
  - replace (a + 8) with (a + 1 * 8) by lia. now rewrite N.mod_add by lia.
Qed.
Lemma not_place al a : word_alignment al -> ~ aligned al a -> word_place al a = false.
Proof.
  intros A H. destruct (word_place al a) eqn:E; [|reflexivity]. apply place_iff in E; [contradiction|now apply al_nonzero].
Qed.

Lemma word_length m w : length (int_to_mem m 8 w) = 8%nat.
Proof. unfold int_to_mem. destruct m; rewrite ?rev_length; reflexivity. Qed.

(** the bytes of the object through the four stores *)
Lemma engine_at al m w1 w2 a mem : word_alignment al -> aligned al a -> exists mem',
  uuid_engine_at al m w1 w2 a mem = Ok mem' /\ load_bytes mem' a 16 = uuid_random m w1 w2 /\ changed_only mem mem' a 16.
Proof.
  intros A P. apply place_iff in P; [|now apply al_nonzero].
  unfold uuid_engine_at, store_word. rewrite place_second, P by assumption. cbn [obind].
  eexists. split; [reflexivity|]. split.
  - unfold mark_byte, uuid_random, set_byte.
    pose proof (word_length m (Z.of_N w1)) as L1. pose proof (word_length m (Z.of_N w2)) as L2.
    set (c1 := int_to_mem m 8 (Z.of_N w1)) in *. set (c2 := int_to_mem m 8 (Z.of_N w2)) in *.
    set (m0 := store_bytes mem a (repeat x00 16)).
    assert (E0 : load_bytes m0 a 16 = repeat x00 16) by (apply (store_load (repeat x00 16))).
    set (m1 := store_bytes m0 a c1).
    assert (E1 : load_bytes m1 a 16 = c1 ++ repeat x00 8).
    { unfold m1. pose proof (store_inside m0 a 16 0 c1) as H. replace (a + N.of_nat 0) with a in H by lia.
      rewrite H by (rewrite L1; lia). rewrite L1, E0. reflexivity. }
    set (b6 := byte_of_N (N.lor (N.land (Byte.to_N (m1 (a + 6))) 15) 64)).
    set (m2 := store_bytes m1 (a + 6) [b6]).
    assert (B6 : nth 6 (c1 ++ repeat x00 8) x00 = m1 (a + 6)).
    { rewrite <- E1. rewrite (nth_load m1 6 16 a) by lia. reflexivity. }
    assert (E2 : load_bytes m2 a 16 = firstn 6 (c1 ++ repeat x00 8) ++ b6 :: skipn 7 (c1 ++ repeat x00 8)).
    { unfold m2. pose proof (store_inside m1 a 16 6 [b6]) as H. change (a + N.of_nat 6) with (a + 6) in H.
      rewrite H by (cbn; lia). now rewrite E1. }
    set (m3 := store_bytes m2 (a + 8) c2).
    assert (E3 : load_bytes m3 a 16 = firstn 8 (load_bytes m2 a 16) ++ c2).
    { unfold m3. pose proof (store_inside m2 a 16 8 c2) as H. change (a + N.of_nat 8) with (a + 8) in H.
      rewrite H by (rewrite L2; lia). rewrite L2, (skipn_all2 (n := 8 + 8)), app_nil_r; [reflexivity|].
      rewrite load_length. lia. }
    pose proof (store_inside m3 a 16 8 [byte_of_N (N.lor (N.land (Byte.to_N (m3 (a + 8))) 63) 128)]) as E4.
    change (a + N.of_nat 8) with (a + 8) in E4. rewrite E4 by (cbn; lia). clear E4.
    replace (m3 (a + 8)) with (nth 8 (load_bytes m3 a 16) x00) by (rewrite (nth_load m3 8 16 a) by lia; reflexivity).
    rewrite E3, E2, B6. fold b6. reflexivity.
  - intros x Hx. unfold mark_byte. rewrite !store_outside; [reflexivity|..];
      cbv [lenN]; rewrite ?word_length, ?repeat_length; cbn [length]; lia.
Qed.

Lemma engine_at_make al m w1 w2 a mem : word_alignment al -> aligned al a -> exists mem',
  uuid_engine_at al m w1 w2 a mem = Ok mem' /\ holds mem' a (uuid_random m w1 w2) /\ changed_only mem mem' a 16.
Proof.
  intros A P. destruct (engine_at al m w1 w2 a mem A P) as (mem' & E & L & C). exists mem'.
  split; [exact E|]. split; [|exact C]. apply load_holds.
  pose proof (load_length mem' 16 a) as H. rewrite L in H. now rewrite H.
Qed.

Lemma hash_at al m h a mem id : word_alignment al -> aligned al a -> length id = 16%nat -> holds mem a id ->
  uuid_hash_at al m h a mem = Ok (uuid_hash m h id).
Proof.
  intros A P L H. apply place_iff in P; [|now apply al_nonzero]. apply holds_load in H. rewrite L in H.
  unfold uuid_hash_at, load_word. rewrite place_second, P by assumption. cbn [obind].
  unfold uuid_hash. rewrite <- H. change 16%nat with (8 + 8)%nat. rewrite (load_app mem 8 8 a).
  rewrite firstn_app, skipn_app, load_length, Nat.sub_diag, firstn_O, skipn_O, app_nil_r.
  rewrite firstn_all2, skipn_all2 by (rewrite load_length; lia). reflexivity.
Qed.

Lemma misplaced al m a : word_alignment al -> ~ aligned al a ->
  (forall w1 w2 mem, uuid_engine_at al m w1 w2 a mem = UB) /\ (forall h mem, uuid_hash_at al m h a mem = UB).
Proof.
  intros A P. pose proof (not_place al a A P) as E.
  split; intros; unfold uuid_engine_at, uuid_hash_at, store_word, load_word; rewrite E; reflexivity.
Qed.

(** after a member of one byte *)
Lemma after_a_byte : member_after [(1, 1)] 1.
Proof.
  change [(1, 1)] with ([] ++ [(1, 1)]). change 1 with (0 + 1) at 3.
  apply (ma_next [] 0 1 1 0); [constructor|lia|exists 0; reflexivity|intros; lia].
Qed.
Lemma misplaced_refuted al m base : word_alignment al -> al <> 1 -> aligned 16 base ->
  exists ms o, member_after ms o /\
    (forall w1 w2 mem, uuid_engine_at al m w1 w2 (base + o) mem = UB) /\
    (forall h mem, uuid_hash_at al m h (base + o) mem = UB).
Proof.
  intros A N1 [k ->]. exists [(1, 1)], 1. split; [exact after_a_byte|]. apply misplaced; [exact A|].
  intros [j E]. destruct A as [-> | [-> | [-> | ->]]]; lia.
Qed.

Lemma elements_aligned al base k : word_alignment al -> (aligned al (base + 16 * k) <-> aligned al base).
Proof.
  intros A. split; intros [j E].
  - destruct A as [-> | [-> | [-> | ->]]]; [exists base|exists (j - 8 * k)|exists (j - 4 * k)|exists (j - 2 * k)]; lia.
  - destruct A as [-> | [-> | [-> | ->]]]; [exists (base + 16 * k)|exists (j + 8 * k)|exists (j + 4 * k)|exists (j + 2 * k)]; lia.
Qed.

Lemma array_elements al m base k : word_alignment al ->
  (aligned al base -> (forall w1 w2 mem, exists mem', uuid_engine_at al m w1 w2 (base + 16 * k) mem = Ok mem') /\
                      (forall h mem, exists r, uuid_hash_at al m h (base + 16 * k) mem = Ok r)) /\
  (~ aligned al base -> (forall w1 w2 mem, uuid_engine_at al m w1 w2 (base + 16 * k) mem = UB) /\
                        (forall h mem, uuid_hash_at al m h (base + 16 * k) mem = UB)).
Proof.
  intros A. pose proof (elements_aligned al base k A) as E. split; intros P.
  - apply E in P. split; intros.
    + destruct (engine_at al m w1 w2 _ mem A P) as (mem' & R & _). now exists mem'.
    + exists (uuid_hash m h (load_bytes mem (base + 16 * k) 16)).
      apply hash_at; [exact A|exact P|apply load_length|]. apply load_holds. now rewrite load_length.
  - apply misplaced; [exact A|]. now rewrite E.
Qed.
