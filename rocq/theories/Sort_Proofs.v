(** Proofs about insertion sort. *)
From Coq Require Import List ZArith Lia Permutation Sorted. Import ListNotations.
From Verif Require Import Base Sv_Model SvIter_Model Coll_Spec Algo_Spec Algo_Proofs Sort_Spec.

Section Sort.
Context {V : Type} (less : V -> V -> bool).
Fixpoint ins (x : V) (ra : list V) : list V :=
  match ra with [] => [x] | y :: q => if less x y then y :: ins x q else x :: y :: q end.
Lemma ins_len x ra : length (ins x ra) = S (length ra).
Proof. induction ra as [|y q IH]; [reflexivity|]. cbn. destruct (less x y); cbn; [now rewrite IH|reflexivity]. Qed.
Lemma ins_perm x ra : Permutation (x :: ra) (ins x ra).
Proof. induction ra as [|y q IH]; [apply Permutation_refl|]. cbn. destruct (less x y); [|apply Permutation_refl]. rewrite perm_swap. now constructor. Qed.
Lemma sink_list te next rounds : forall x ra B q, q 0%nat = 0%Z -> q 3%nat = Z.of_nat (length ra) -> (length ra <= rounds)%nat ->
  exists q', q' 0%nat = 0%Z /\ q' 1%nat = q 1%nat /\ q' 2%nat = q 2%nat /\
    on_list te (sink less rounds next) q (rev ra ++ x :: B) = on_list te next q' (rev (ins x ra) ++ B).
Proof.
  induction rounds as [|n IH]; intros x ra B q Q0 Q3 L.
  - destruct ra; [|cbn in L; lia]. exists q. repeat split; assumption.
  - cbn [sink on_list]. rewrite Q0, Q3. destruct ra as [|y ra].
    + exists q. repeat split; assumption.
    + rewrite (proj2 (Z.eqb_neq _ _)) by (cbn [length]; lia). cbn [on_list].
      assert (S4 : forall z w, set (set q 4 z) 4 w 4%nat = w) by reflexivity.
      assert (S3 : forall z w, set (set q 4 z) 4 w 3%nat = Z.of_nat (length (y :: ra))) by (intros; exact Q3).
      assert (S4' : forall z, set q 4 z 4%nat = z) by reflexivity.
      rewrite !S4'. rewrite Q3, (proj2 (Z.ltb_lt _ _)) by (cbn [length]; lia). rewrite !S3, !Nat2Z.id, !S4.
      assert (E1 : Z.to_nat (Z.of_nat (length (y :: ra)) - 1) = length (rev ra)) by (rewrite rev_length; cbn [length]; lia). rewrite !E1.
      assert (E2 : length (y :: ra) = length (rev ra ++ [y])) by (rewrite app_length, rev_length; cbn [length]; lia).
      cbn [rev]. rewrite E2, nth_mid. 
      assert (E3 : forall z, (rev ra ++ [y]) ++ z :: B = rev ra ++ y :: z :: B) by (intros; now rewrite <- app_assoc). rewrite E3, nth_mid.
      cbn [ins]. destruct (less x y) eqn:LT.
      * assert (E1' : Z.to_nat (Z.of_nat (length (rev ra ++ [y])) - 1) = length (rev ra)) by (rewrite <- E2; exact E1).
        cbn [on_list]. rewrite !S3, !S4, !Nat2Z.id, ?E1, ?E1', E2, <- E3, nth_mid, put_mid, E3, nth_mid, put_mid.
        destruct (IH x ra (y :: B) (set (set (set q 4 (q 3%nat)) 4 (q 3%nat - 1)%Z) 3 (q 3%nat - 1)%Z)) as (q' & A0 & A1 & A2 & A3).
        -- exact Q0.
        -- unfold set. cbn [Nat.eqb]. rewrite Q3. cbn [length]. lia.
        -- cbn [length] in L. lia.
        -- exists q'. split; [exact A0|]. split; [exact A1|]. split; [exact A2|].
           rewrite Q3, E2 in A3. unfold set at 2 in A3. cbn [Nat.eqb] in A3. 
           replace (rev (y :: ins x ra) ++ B) with (rev (ins x ra) ++ y :: B) by (cbn [rev]; rewrite <- app_assoc; reflexivity). rewrite <- A3. reflexivity.
      * eexists (set (set q 4 _) 4 _). repeat split; [exact Q0|]. cbn [rev]. rewrite <- !app_assoc. reflexivity.
Qed.
Lemma outer_list te size rounds : forall ra B q, q 0%nat = 0%Z -> q 1%nat = Z.of_nat (length ra + length B) -> q 2%nat = Z.of_nat (length ra) -> (length ra + length B <= size)%nat -> (length B < rounds)%nat ->
  on_list te (sort_from less rounds size) q (rev ra ++ B) = Some (rev (fold_left (fun a x => ins x a) B ra)).
Proof.
  induction rounds as [|n IH]; intros ra B q Q0 Q1 Q2 S L; [lia|]. cbn [sort_from on_list]. rewrite Q1, Q2. destruct B as [|x B].
  - rewrite (proj2 (Z.eqb_eq _ _)) by (cbn [length]; lia). cbn [on_list fold_left]. now rewrite app_nil_r.
  - rewrite (proj2 (Z.eqb_neq _ _)) by (cbn [length]; lia). cbn [on_list].
    destruct (sink_list te (Step 2 (sort_from less n size)) size x ra B (set q 3 (q 2%nat))) as (q' & A0 & A1 & A2 & A3); [exact Q0|exact Q2|lia|].
    rewrite A3. cbn [on_list]. change (set q 3 (q 2%nat) 2%nat) with (q 2%nat) in A2. change (set q 3 (q 2%nat) 1%nat) with (q 1%nat) in A1.
    rewrite A2, Q2, (proj2 (Z.ltb_lt _ _)) by (rewrite app_length, rev_length, ins_len; lia). cbn [fold_left]. apply IH.
    + exact A0.
    + change (set q' 2 (Z.of_nat (length ra) + 1)%Z 1%nat) with (q' 1%nat). rewrite A1, Q1, ins_len. cbn [length]. lia.
    + change (set q' 2 (Z.of_nat (length ra) + 1)%Z 2%nat) with (Z.of_nat (length ra) + 1)%Z. rewrite ins_len. lia.
    + rewrite ins_len. cbn [length] in S. lia.
    + cbn [length] in L. lia.
Qed.
Definition down := StronglySorted (fun a c => less a c = false).
Lemma ins_in (P : V -> Prop) x ra : P x -> Forall P ra -> Forall P (ins x ra).
Proof. intros H F. apply (Permutation_Forall (ins_perm x ra)). now constructor. Qed.
Lemma ins_down x ra : strict_weak less -> down ra -> down (ins x ra).
Proof.
  intros (AS & TR). induction ra as [|y q IH]; intros D; [repeat constructor|]. inversion D as [|? ? Dq F]; subst. cbn [ins]. destruct (less x y) eqn:E.
  - constructor; [now apply IH|]. apply ins_in; [now apply AS|exact F].
  - constructor; [exact D|]. constructor; [exact E|]. rewrite Forall_forall in F |- *. intros z Z. apply (TR z y x); [now apply F|exact E].
Qed.
Lemma fold_down B : strict_weak less -> forall ra, down ra -> down (fold_left (fun a x => ins x a) B ra).
Proof. intros W. induction B as [|x B IH]; intros ra D; [exact D|]. cbn. apply IH. now apply ins_down. Qed.
Lemma fold_perm B : forall ra, Permutation (B ++ ra) (fold_left (fun a x => ins x a) B ra).
Proof.
  induction B as [|x B IH]; intros ra; [apply Permutation_refl|]. cbn [fold_left app]. rewrite <- IH, <- ins_perm. apply Permutation_middle.
Qed.
Lemma down_order ra : down ra -> in_order less (rev ra).
Proof.
  induction ra as [|a q IH]; intros D i j x y L X Y; [now destruct i|]. inversion D as [|? ? Dq F]; subst. cbn [rev] in X, Y.
  assert (J : (j < length (rev q ++ [a]))%nat) by (apply nth_error_Some; congruence). rewrite app_length in J. cbn [length] in J.
  rewrite nth_error_app1 in X by lia. destruct (Compare_dec.lt_dec j (length (rev q))) as [G|G].
  - rewrite nth_error_app1 in Y by lia. now apply (IH Dq i j x y).
  - replace j with (length (rev q)) in Y by lia. rewrite nth_error_app2, PeanoNat.Nat.sub_diag in Y by lia. injection Y as <-.
    rewrite Forall_forall in F. apply F. apply in_rev. apply (nth_error_In _ i X).
Qed.
Lemma filter_ins (W : strict_weak less) z x ra : filter (equivalent less z) (ins x ra) = filter (equivalent less z) (x :: ra).
Proof.
  induction ra as [|y q IH]; [reflexivity|]. cbn [ins]. destruct (less x y) eqn:E; [|reflexivity].
  change (filter (equivalent less z) (y :: ins x q)) with (if equivalent less z y then y :: filter (equivalent less z) (ins x q) else filter (equivalent less z) (ins x q)).
  rewrite IH. cbn [filter]. destruct (equivalent less z x) eqn:X; destruct (equivalent less z y) eqn:Y; try reflexivity.
  unfold equivalent in X, Y. apply Bool.andb_true_iff in X. apply Bool.andb_true_iff in Y. rewrite !Bool.negb_true_iff in X, Y.
  destruct W as (_ & TR). rewrite (TR y z x) in E by tauto. discriminate.
Qed.
Lemma filter_fold (W : strict_weak less) z B : forall ra,
  filter (equivalent less z) (rev (fold_left (fun a x => ins x a) B ra)) = filter (equivalent less z) (rev ra) ++ filter (equivalent less z) B.
Proof.
  assert (FR : forall l : list V, filter (equivalent less z) (rev l) = rev (filter (equivalent less z) l)).
  { induction l as [|a l IH]; [reflexivity|]. cbn [rev filter]. rewrite filter_app, IH. cbn [filter]. destruct (equivalent less z a); [reflexivity|now rewrite app_nil_r]. }
  induction B as [|x B IH]; intros ra; cbn [fold_left]; [cbn [filter]; now rewrite app_nil_r|]. rewrite IH, (FR (ins x ra)), filter_ins by assumption.
  cbn [filter]. rewrite (FR ra). destruct (equivalent less z x); [cbn [rev]; now rewrite <- app_assoc|reflexivity].
Qed.
Lemma sort_list te l : strict_weak less -> exists l', on_values te (insertion_sort less (length l)) l = Some l' /\ Permutation l l' /\ in_order less l' /\ same_order less l l'.
Proof.
  intros W. exists (rev (fold_left (fun a x => ins x a) l [])). split; [|split].
  - unfold on_values, insertion_sort. cbn [on_list]. apply (outer_list te (length l) (S (length l)) [] l); try reflexivity; cbn [length]; lia.
  - rewrite <- Permutation_rev. rewrite <- fold_perm, app_nil_r. apply Permutation_refl.
  - split; [apply down_order; apply fold_down; [exact W|constructor]|]. intros z. now rewrite filter_fold.
Qed.
Lemma sort_ok (b : build) (i : N) (p : N -> svec V) l : strict_weak less -> holds (p i) l ->
  exists p' l', on_vector b (insertion_sort less (length l)) i p = Ok p' /\ holds (p' i) l' /\ Permutation l l' /\ in_order less l' /\ same_order less l l' /\ forall j, j <> i -> p' j = p j.
Proof.
  intros W H. destruct (sort_list false l W) as (l' & A & B & C & C'). destruct (algo_ok b false _ i p l l' ltac:(discriminate) H A) as (p' & P1 & P2 & P3).
  exists p', l'. repeat (split; [assumption|]). assumption.
Qed.
End Sort.
