(** Lemmas about [Base]. *)
From Verif Require Import Base.

Ltac Zify.zify_post_hook ::= Z.div_mod_to_equations.

Lemma of_N_mod_some n : exists b, Byte.of_N (n mod 256) = Some b.
Proof.
  destruct (Byte.of_N (n mod 256)) as [b|] eqn:E; [eauto|].
  apply Byte.of_N_None_iff in E. pose proof (N.mod_lt n 256 ltac:(lia)). lia.
Qed.

Lemma to_N_byte_of_N n : Byte.to_N (byte_of_N n) = n mod 256.
Proof.
  unfold byte_of_N. destruct (of_N_mod_some n) as [b Hb]. rewrite Hb.
  now apply Byte.to_of_N in Hb.
Qed.

Lemma to_N_lt b : Byte.to_N b < 256.
Proof. pose proof (Byte.to_N_bounded b). lia. Qed.

Lemma byte_of_N_to_N b : byte_of_N (Byte.to_N b) = b.
Proof.
  unfold byte_of_N. rewrite N.mod_small by apply to_N_lt. now rewrite Byte.of_to_N.
Qed.

Lemma to_N_inj a b : Byte.to_N a = Byte.to_N b -> a = b.
Proof. intros H. rewrite <- (byte_of_N_to_N a), <- (byte_of_N_to_N b). now rewrite H. Qed.

Lemma lenN_app {A} (a b : list A) : lenN (a ++ b) = lenN a + lenN b.
Proof. unfold lenN. rewrite app_length. lia. Qed.
Lemma lenN_nil {A} : lenN (@nil A) = 0. Proof. reflexivity. Qed.
Lemma lenN_cons {A} (x : A) l : lenN (x :: l) = 1 + lenN l.
Proof. unfold lenN. cbn [length]. lia. Qed.
Lemma lenN_map {A B} (f : A -> B) l : lenN (map f l) = lenN l.
Proof. unfold lenN. now rewrite map_length. Qed.
Lemma lenN_repeat {A} (x : A) n : lenN (repeat x n) = N.of_nat n.
Proof. unfold lenN. now rewrite repeat_length. Qed.
Lemma lenN_0 {A} (l : list A) : lenN l = 0 -> l = [].
Proof. unfold lenN. destruct l; cbn [length]; [easy|lia]. Qed.

Lemma lenN_takeN {A} n (l : list A) : lenN (takeN n l) = N.min n (lenN l).
Proof. unfold lenN, takeN. rewrite firstn_length. lia. Qed.
Lemma lenN_dropN {A} n (l : list A) : lenN (dropN n l) = lenN l - n.
Proof. unfold lenN, dropN. rewrite skipn_length. lia. Qed.

Lemma takeN_0 {A} (l : list A) : takeN 0 l = [].
Proof. reflexivity. Qed.
Lemma dropN_0 {A} (l : list A) : dropN 0 l = l.
Proof. reflexivity. Qed.
Lemma takeN_nil {A} n : takeN n (@nil A) = [].
Proof. unfold takeN. apply firstn_nil. Qed.
Lemma takeN_dropN {A} n (l : list A) : takeN n l ++ dropN n l = l.
Proof. apply firstn_skipn. Qed.
Lemma takeN_all {A} n (l : list A) : lenN l <= n -> takeN n l = l.
Proof. unfold lenN, takeN. intros. apply firstn_all2. lia. Qed.
Lemma dropN_all {A} n (l : list A) : lenN l <= n -> dropN n l = [].
Proof. unfold lenN, dropN. intros. apply skipn_all2. lia. Qed.
Lemma dropN_dropN {A} a b (l : list A) : dropN a (dropN b l) = dropN (a + b) l.
Proof.
  unfold dropN. replace (N.to_nat (a + b)) with (N.to_nat b + N.to_nat a)%nat by lia.
  generalize (N.to_nat a). generalize (N.to_nat b). clear. intros b a.
  revert l. induction b as [|b IH]; intros l; [reflexivity|].
  destruct l; cbn; [now rewrite skipn_nil|apply IH].
Qed.
Lemma takeN_takeN {A} a b (l : list A) : takeN a (takeN b l) = takeN (N.min a b) l.
Proof. unfold takeN. rewrite firstn_firstn. f_equal. lia. Qed.
Lemma takeN_app {A} n (a b : list A) :
  takeN n (a ++ b) = takeN n a ++ takeN (n - lenN a) b.
Proof.
  unfold takeN, lenN. rewrite firstn_app. do 2 f_equal. lia.
Qed.
Lemma dropN_app {A} n (a b : list A) :
  dropN n (a ++ b) = dropN n a ++ dropN (n - lenN a) b.
Proof.
  unfold dropN, lenN. rewrite skipn_app. do 2 f_equal. lia.
Qed.
Lemma takeN_app_exact {A} n (a b : list A) : n = lenN a -> takeN n (a ++ b) = a.
Proof.
  intros ->. rewrite takeN_app, N.sub_diag, takeN_0, app_nil_r. apply takeN_all. lia.
Qed.
Lemma dropN_app_exact {A} n (a b : list A) : n = lenN a -> dropN n (a ++ b) = b.
Proof.
  intros ->. rewrite dropN_app, N.sub_diag, dropN_0, dropN_all by lia. reflexivity.
Qed.
Lemma takeN_dropN_comm {A} a b (l : list A) :
  takeN a (dropN b l) = dropN b (takeN (a + b) l).
Proof.
  unfold takeN, dropN. replace (N.to_nat (a + b)) with (N.to_nat b + N.to_nat a)%nat by lia.
  apply firstn_skipn_comm.
Qed.
Lemma takeN_plus {A} a b (l : list A) : takeN (a + b) l = takeN a l ++ takeN b (dropN a l).
Proof.
  rewrite <- (takeN_dropN a l) at 1. rewrite takeN_app, lenN_takeN, takeN_takeN.
  destruct (N.le_ge_cases a (lenN l)).
  - replace (a + b - N.min a (lenN l)) with b by lia. now replace (N.min (a+b) a) with a by lia.
  - rewrite !(dropN_all a) by lia. rewrite !takeN_nil. f_equal. f_equal. lia.
Qed.

Lemma sz_add_small a b : a + b < size_mod -> sz_add a b = a + b.
Proof. unfold sz_add. apply N.mod_small. Qed.
Lemma sz_mul_small a b : a * b < size_mod -> sz_mul a b = a * b.
Proof. unfold sz_mul. apply N.mod_small. Qed.
Lemma size_mod_val : size_mod = 18446744073709551616. Proof. reflexivity. Qed.
Lemma sz_add_lt a b : sz_add a b < size_mod.
Proof. apply N.mod_lt. now rewrite size_mod_val. Qed.

(** The overflow test [a + b < a] in size_t detects exactly [a + b >= 2^64]. *)
Lemma sz_add_wraps a b : a < size_mod -> b < size_mod ->
  (sz_add a b < a <-> size_mod <= a + b).
Proof. unfold sz_add. rewrite size_mod_val. intros. lia. Qed.

Lemma endian_eqb_refl e : endian_eqb e e = true. Proof. now destruct e. Qed.

Lemma nth_error_ext {A} (l l' : list A) :
  (forall i, nth_error l i = nth_error l' i) -> l = l'.
Proof.
  revert l'; induction l as [|a l IH]; intros l' H.
  - specialize (H 0%nat). destruct l'; [easy|discriminate].
  - destruct l' as [|b l']; [specialize (H 0%nat); discriminate|].
    f_equal; [specialize (H 0%nat); cbn in H; congruence|].
    apply IH. intros i. exact (H (S i)).
Qed.

Lemma Forall2_length {A B} (R : A -> B -> Prop) l l' : Forall2 R l l' -> length l = length l'.
Proof. induction 1; cbn; congruence. Qed.
