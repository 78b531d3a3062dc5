(** Proofs about sequences of steps of an index. *)
From Coq Require Import List ZArith Lia. Import ListNotations.
From Verif Require Import Base BaseFacts Index_Model Core_Spec Index_Proofs IndexHist_Spec.

Lemma exact_wrap z : (Z.of_N (Z.to_N (z mod 2 ^ 64)) = z mod 2 ^ 64)%Z.
Proof. apply Z2N.id. apply Z.mod_pos_bound. reflexivity. Qed.
Lemma wrap_lt z : Z.to_N (z mod 2 ^ 64) < 2 ^ 64.
Proof. pose proof (Z.mod_pos_bound z (2 ^ 64) eq_refl). change (2 ^ 64) with (Z.to_N (2 ^ 64)). apply Z2N.inj_lt; lia. Qed.
Lemma fits_iff z : fits z = true <-> (0 <= z < 2 ^ 64)%Z.
Proof. unfold fits. rewrite Bool.andb_true_iff, Z.leb_le, Z.ltb_lt. reflexivity. Qed.
Lemma release_step i s : i < 2 ^ 64 -> do_step Release i s = Ok (Z.to_N (exact i (move s) mod 2 ^ 64)).
Proof. intros H. destruct s as [| |off|off]; cbn [do_step move]; pose proof (release_exact i) as R; [destruct (R 0%Z H)|destruct (R 0%Z H)|destruct (R off H)|destruct (R off H)]; tauto. Qed.
Lemma release_steps ss : forall i, i < 2 ^ 64 -> do_steps Release i ss = Ok (Z.to_N (exact i (moves ss) mod 2 ^ 64)).
Proof.
  induction ss as [|s r IH]; intros i H; cbn [do_steps moves fold_right].
  - f_equal. unfold exact. rewrite Z.add_0_r, Z.mod_small, N2Z.id; [reflexivity|]. apply N2Z.inj_lt in H. change (Z.of_N (2 ^ 64)) with (2 ^ 64)%Z in H. lia.
  - rewrite release_step by assumption. cbn [obind]. rewrite IH by apply wrap_lt. f_equal. f_equal. unfold exact at 1. rewrite exact_wrap.
    rewrite Zplus_mod_idemp_l. f_equal. unfold exact. change (fold_right (fun s0 z => (move s0 + z)%Z) 0%Z r) with (moves r). lia.
Qed.
Lemma debug_step_ok b i s : b <> Release -> i < 2 ^ 64 -> step_ok s -> reported b (fits (exact i (move s))) (do_step b i s) (Z.to_N (exact i (move s))).
Proof.
  intros Hb Hi Hs. destruct s as [| |off|off]; cbn [do_step move step_ok] in *.
  - apply (debug_steps b i Hb Hi).
  - apply (debug_steps b i Hb Hi).
  - destruct Hs as (A & B). apply (debug_exact b i off Hb Hi A B).
  - destruct Hs as (A & B). apply (debug_exact b i off Hb Hi A B).
Qed.
Lemma failed_bind {A B} b (x : outcome A) (f : A -> outcome B) : failed b x -> failed b (obind x f).
Proof. destruct b; cbn [failed]; [tauto|intros ->; reflexivity|intros ->; reflexivity]. Qed.
Lemma debug_steps_exact b ss : b <> Release -> forall i, i < 2 ^ 64 -> Forall step_ok ss ->
  (stays_inside i ss -> do_steps b i ss = Ok (Z.to_N (exact i (moves ss)))) /\ (~ stays_inside i ss -> failed b (do_steps b i ss)).
Proof.
  intros Hb. induction ss as [|s r IH]; intros i H F.
  - split; [|intros K; destruct K; intros n; rewrite firstn_nil; cbn [moves fold_right]; apply fits_iff; unfold exact; apply N2Z.inj_lt in H; change (Z.of_N (2 ^ 64)) with (2 ^ 64)%Z in H; lia].
    intros _. cbn [do_steps moves fold_right]. unfold exact. rewrite Z.add_0_r, N2Z.id. reflexivity.
  - pose proof (Forall_inv F) as Fs. pose proof (Forall_inv_tail F) as Fr. pose proof (debug_step_ok b i s Hb H Fs) as D. cbn [do_steps].
    destruct (fits (exact i (move s))) eqn:E; cbn [reported] in D.
    + rewrite D. cbn [obind]. apply fits_iff in E.
      assert (J : Z.to_N (exact i (move s)) < 2 ^ 64) by (change (2 ^ 64) with (Z.to_N (2 ^ 64)); apply Z2N.inj_lt; lia).
      assert (X : forall q, exact (Z.to_N (exact i (move s))) q = exact i (move s + q)) by (intros q; unfold exact at 1; rewrite Z2N.id by lia; unfold exact; lia).
      assert (ST : stays_inside i (s :: r) <-> stays_inside (Z.to_N (exact i (move s))) r).
      { split; intros K n.
        - rewrite X. specialize (K (S n)). exact K.
        - destruct n as [|n]; [cbn [firstn moves fold_right]; apply fits_iff; unfold exact; apply N2Z.inj_lt in H; change (Z.of_N (2 ^ 64)) with (2 ^ 64)%Z in H; lia|].
          specialize (K n). rewrite X in K. exact K. }
      destruct (IH _ J Fr) as (A & B). rewrite ST. split; intros K; [rewrite (A K), X; reflexivity|now apply B].
    + split; intros K.
      * specialize (K 1%nat). cbn [firstn moves fold_right] in K. rewrite Z.add_0_r in K. congruence.
      * now apply failed_bind.
Qed.
Lemma debug_agrees b ss i j : i < 2 ^ 64 -> Forall step_ok ss -> do_steps b i ss = Ok j -> do_steps Release i ss = Ok j.
Proof.
  intros H F E. assert (C : b = Release \/ b <> Release) by (destruct b; [now left|right; discriminate|right; discriminate]). destruct C as [->|Hb]; [exact E|].
  destruct (debug_steps_exact b ss Hb i H F) as (A & B).
  assert (S : ~ ~ stays_inside i ss) by (intros K; specialize (B K); rewrite E in B; destruct b; [contradiction|discriminate|discriminate]).
  assert (S' : stays_inside i ss).
  { intros n. destruct (fits (exact i (moves (firstn n ss)))) eqn:G; [reflexivity|]. destruct S. intros K. specialize (K n). congruence. }
  rewrite (A S') in E. injection E as <-. rewrite release_steps by assumption. f_equal. f_equal. apply Z.mod_small.
  specialize (S' (length ss)). rewrite firstn_all in S'. now apply fits_iff in S'.
Qed.
Lemma inc_ok b i : i + 1 < 2 ^ 64 -> ix_inc b i = Ok (i + 1).
Proof.
  intros H. assert (F : (0 <= exact i 1 < 2 ^ 64)%Z) by (unfold exact; apply N2Z.inj_lt in H; change (Z.of_N (2 ^ 64)) with (2 ^ 64)%Z in H; lia).
  assert (E : Z.to_N (exact i 1) = i + 1) by (unfold exact; lia).
  assert (C : b = Release \/ b <> Release) by (destruct b; [now left|right; discriminate|right; discriminate]). destruct C as [->|Hb].
  - pose proof (release_step i Inc ltac:(lia)) as R. cbn [do_step move] in R. rewrite R, Z.mod_small, E by exact F. reflexivity.
  - pose proof (debug_step_ok b i Inc Hb ltac:(lia) I) as R. cbn [do_step move] in R. rewrite (proj2 (fits_iff _) F) in R. cbn [reported] in R. rewrite R, E. reflexivity.
Qed.
Lemma up_ok b fuel : forall i last, last < 2 ^ 64 -> (N.to_nat (last - i) <= fuel)%nat ->
  up_loop fuel b i last = Ok (map (fun k => i + N.of_nat k) (seq 0 (N.to_nat (last - i)))).
Proof.
  induction fuel as [|k IH]; intros i last H L; cbn [up_loop]; destruct (N.ltb_spec i last) as [C|C]; try lia.
  - replace (N.to_nat (last - i)) with 0%nat by lia. reflexivity.
  - rewrite inc_ok by lia. cbn [obind]. rewrite IH by lia. cbn [obind]. f_equal.
    replace (N.to_nat (last - i)) with (S (N.to_nat (last - (i + 1)))) by lia. cbn [seq map]. f_equal; [lia|].
    rewrite <- seq_shift, map_map. apply map_ext. intros a. lia.
  - replace (N.to_nat (last - i)) with 0%nat by lia. reflexivity.
Qed.
Lemma down_release fuel : forall i, i < 2 ^ 64 -> down_loop fuel Release i = Diverge.
Proof.
  induction fuel as [|k IH]; intros i H; cbn [down_loop]; rewrite (proj2 (N.leb_le _ _)) by lia; [reflexivity|].
  pose proof (release_step i Dec H) as R. cbn [do_step move] in R. rewrite R. cbn [obind]. rewrite IH by apply wrap_lt. reflexivity.
Qed.
Lemma down_debug b fuel : b <> Release -> forall i, i < 2 ^ 64 -> (N.to_nat i < fuel)%nat -> failed b (down_loop fuel b i).
Proof.
  intros Hb. induction fuel as [|k IH]; intros i H L; [lia|]. cbn [down_loop]. rewrite (proj2 (N.leb_le _ _)) by lia.
  pose proof (debug_step_ok b i Dec Hb H I) as R. cbn [do_step move] in R.
  destruct (fits (exact i (-1))) eqn:E; cbn [reported] in R.
  - rewrite R. cbn [obind]. apply fits_iff in E. unfold exact in *. apply failed_bind. apply IH; lia.
  - now apply failed_bind.
Qed.
