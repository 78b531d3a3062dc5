(** Proofs about binary search. *)
From Coq Require Import List ZArith Lia. Import ListNotations.
From Verif Require Import Base BaseFacts Bisect_Spec Iter_Model Sv_Model Coll_Spec Coll_PropLemmas Frag_Model Frag_Spec FragGap_Spec FragGap_Proofs FragSearch_Proofs.

Section G.
Context {It V : Type} (advance : It -> Z -> outcome It) (inc : It -> outcome It) (deref : It -> outcome V) (less : V -> bool).
Context (l before after : list V) (SP : split_at less l before after) (at_ : Z -> It -> Prop).
Notation n := (Z.of_nat (length l)).
Context (ADV : forall i off it, at_ i it -> (0 <= i)%Z -> (0 <= off)%Z -> (i + off < n)%Z -> exists it', advance it off = Ok it' /\ at_ (i + off)%Z it').
Context (INC : forall i it, at_ i it -> (0 <= i < n)%Z -> exists it', inc it = Ok it' /\ at_ (i + 1)%Z it').
Context (DEREF : forall i it v, at_ i it -> (0 <= i)%Z -> nth_error l (Z.to_nat i) = Some v -> deref it = Ok v).
Lemma bisect_ok : forall k i len it, at_ i it -> (0 <= i)%Z -> (0 <= len < 2 ^ Z.of_nat k)%Z -> (i <= Z.of_nat (length before) <= i + len)%Z -> (i + len <= n)%Z ->
  exists it', bisect advance inc deref less (S k) it len = Ok it' /\ at_ (Z.of_nat (length before)) it'.
Proof.
  destruct SP as (E & B & A).
  assert (Z0 : forall k i len it, at_ i it -> (len <= 0)%Z -> (i <= Z.of_nat (length before) <= i + len)%Z ->
    exists it', bisect advance inc deref less (S k) it len = Ok it' /\ at_ (Z.of_nat (length before)) it').
  { intros k i len it I L R. exists it. cbn [bisect]. rewrite (proj2 (Z.leb_le _ _)) by lia. split; [reflexivity|]. replace (Z.of_nat (length before)) with i by lia. exact I. }
  induction k as [|k IH]; intros i len it I P L R M.
  - apply (Z0 0%nat i len it); auto. change (2 ^ Z.of_nat 0)%Z with 1%Z in L. lia.
  - destruct (Z.leb_spec len 0) as [L0|L0]; [apply (Z0 (S k) i len it); auto|].
    assert (HP : (2 ^ Z.of_nat (S k) = 2 * 2 ^ Z.of_nat k)%Z) by (rewrite Nat2Z.inj_succ, Z.pow_succ_r by lia; reflexivity).
    cbn [bisect]. rewrite (proj2 (Z.leb_gt _ _)) by lia. set (half := (len / 2)%Z) in *.
    assert (H : (2 * half <= len < 2 * half + 2)%Z) by (unfold half; pose proof (Z.div_mod len 2 ltac:(lia)); pose proof (Z.mod_pos_bound len 2 ltac:(lia)); lia).
    destruct (ADV i half it I P ltac:(lia) ltac:(lia)) as (mid & -> & AM). cbn [obind].
    destruct (nth_error l (Z.to_nat (i + half))) as [v|] eqn:NV; [|apply nth_error_None in NV; lia].
    rewrite (DEREF (i + half)%Z mid v AM ltac:(lia) NV). cbn [obind].
    assert (S1 : less v = true -> (i + half < Z.of_nat (length before))%Z).
    { intros LV. apply Z.nle_gt. intros K. rewrite E, nth_error_app2 in NV by lia. apply nth_error_In in NV. rewrite Forall_forall in A. specialize (A v NV). cbn beta in A. congruence. }
    assert (S2 : less v = false -> (Z.of_nat (length before) <= i + half)%Z).
    { intros LV. apply Z.nlt_ge. intros K. rewrite E, nth_error_app1 in NV by lia. apply nth_error_In in NV. rewrite Forall_forall in B. specialize (B v NV). cbn beta in B. congruence. }
    destruct (less v) eqn:LV.
    + specialize (S1 eq_refl). destruct (INC (i + half)%Z mid AM ltac:(lia)) as (nx & -> & AN). cbn [obind].
      apply (IH (i + half + 1)%Z (len - half - 1)%Z nx); try assumption; lia.
    + specialize (S2 eq_refl). apply (IH i half it); try assumption; lia.
Qed.
End G.

Lemma di_bisect_ok {V} b (less : V -> bool) (arr : list (option V)) vs rest before after parent k : arr = map Some vs ++ rest -> split_at less vs before after ->
  lenN vs < 2 ^ N.of_nat k ->
  di_bisect b arr less (S k) (di_begin_of parent (lenN vs)) (di_end_of parent (lenN vs)) = Ok (Coll_Spec.at_pos parent (lenN vs) (Z.of_N (lenN before))).
Proof.
  intros EA SP K. unfold di_bisect.
  change (di_begin_of parent (lenN vs)) with (Coll_Spec.at_pos parent (lenN vs) 0). change (di_end_of parent (lenN vs)) with (Coll_Spec.at_pos parent (lenN vs) (Z.of_N (lenN vs))).
  destruct (relations b parent (lenN vs) (Z.of_N (lenN vs)) 0) as (-> & _). cbn [obind].
  assert (LA : lenN vs <= lenN arr) by (rewrite EA; unfold lenN; rewrite app_length, map_length; lia).
  assert (LB : (length before <= length vs)%nat) by (destruct SP as (-> & _); rewrite app_length; lia).
  destruct (bisect_ok (di_add_assign b arr) (di_inc b arr) (di_deref arr) less vs before after SP
    (fun i it => it = Coll_Spec.at_pos parent (lenN vs) i)) with (k := k) (i := 0%Z) (len := (Z.of_N (lenN vs) - 0)%Z) (it := Coll_Spec.at_pos parent (lenN vs) 0) as (it' & -> & ->).
  - intros i off it -> P Q R. eexists. split; [|reflexivity]. destruct b.
    + apply (release_arith arr). unfold lenN in *. lia.
    + pose proof (debug_jump arr DebugAbort parent (lenN vs) i off ltac:(discriminate) LA) as J. cbv zeta in J. rewrite (proj2 (Z.leb_le _ _)), (proj2 (Z.ltb_lt _ _)) in J by (unfold lenN; lia). apply J.
    + pose proof (debug_jump arr DebugThrow parent (lenN vs) i off ltac:(discriminate) LA) as J. cbv zeta in J. rewrite (proj2 (Z.leb_le _ _)), (proj2 (Z.ltb_lt _ _)) in J by (unfold lenN; lia). apply J.
  - intros i it -> P. eexists. split; [|reflexivity]. destruct b.
    + apply (release_arith arr parent (lenN vs) i 1); [unfold lenN in *; lia|reflexivity].
    + pose proof (debug_step arr DebugAbort parent (lenN vs) i ltac:(discriminate) LA ltac:(unfold lenN; lia)) as (J & _). rewrite (proj2 (Z.ltb_lt _ _)) in J by (unfold lenN; lia). apply J.
    + pose proof (debug_step arr DebugThrow parent (lenN vs) i ltac:(discriminate) LA ltac:(unfold lenN; lia)) as (J & _). rewrite (proj2 (Z.ltb_lt _ _)) in J by (unfold lenN; lia). apply J.
  - intros i it v -> P NV. pose proof (deref_inside arr vs rest parent (Z.to_nat i) v EA NV) as D. rewrite Z2Nat.id in D by assumption. exact D.
  - reflexivity.
  - lia.
  - split; [lia|]. apply N2Z.inj_lt in K. rewrite N2Z.inj_pow, nat_N_Z in K. rewrite Z.sub_0_r. exact K.
  - unfold lenN in *; lia.
  - unfold lenN; lia.
  - f_equal. f_equal. unfold lenN. lia.
Qed.

Lemma fs_bisect_ok b (less : N -> bool) fs before after k : sane fs -> fits fs -> split_at less (text fs) before after -> lenN (text fs) < 2 ^ N.of_nat k ->
  exists it, fs_bisect b fs less (S k) (begin_of fs) (end_of fs) = Ok it /\ next b fs (begin_of fs) (lenN before) = Ok it.
Proof.
  intros S F SP K. destruct (proj1 (sane_no_gap fs) S) as (NE & G). unfold fs_bisect.
  assert (LB : (length before <= length (text fs))%nat) by (destruct SP as (-> & _); rewrite app_length; lia).
  assert (D : it_diff fs (end_of fs) (begin_of fs) = Z.of_N (lenN (text fs))).
  { destruct (positions_any b fs 0 (lenN (text fs)) NE F ltac:(lia) ltac:(lia)) as (x & y & X & Y & DF & _).
    destruct (positions_any b fs (lenN (text fs)) (lenN (text fs)) NE F ltac:(lia) ltac:(lia)) as (x' & y' & X' & _ & _ & _ & _ & E & _).
    destruct (positions_any b fs 0 0 NE F ltac:(lia) ltac:(lia)) as (x0 & y0 & X0 & _).
    assert (x = begin_of fs) as -> by (cbn in X; rewrite Nat.add_comm in X; cbn in X; congruence).
    assert (y = x') as -> by congruence. specialize (E eq_refl). rewrite (proj2 E (G _)) in DF. rewrite DF. lia. }
  rewrite D.
  destruct (bisect_ok (seek b fs) (it_inc b fs) (it_deref b fs) less (text fs) before after SP
    (fun i it => next b fs (begin_of fs) (Z.to_N i) = Ok it)) with (k := k) (i := 0%Z) (len := Z.of_N (lenN (text fs))) (it := begin_of fs) as (it' & -> & R).
  - intros i off it A P Q R. destruct (positions_any b fs (Z.to_N i) (Z.to_N (i + off)) NE F ltac:(unfold lenN; lia) ltac:(unfold lenN; lia)) as (x & y & X & Y & _ & _ & _ & _ & SK & _).
    assert (x = it) as -> by congruence. exists y. split; [|exact Y]. specialize (SK ltac:(lia)). rewrite !Z2N.id in SK by lia. replace (i + off - i)%Z with off in SK by lia. exact SK.
  - intros i it A P. destruct (inc_dec_any b fs (Z.to_N i) F ltac:(unfold lenN; lia)) as (x & X & _ & I). assert (x = it) as -> by congruence.
    destruct (I (G _)) as (it' & E1 & E2 & _). exists it'. split; [exact E1|]. replace (Z.to_N (i + 1)) with (Z.to_N i + 1) by lia. exact E2.
  - intros i it v A P NV. assert (L : (Z.to_nat i < length (text fs))%nat) by (apply nth_error_Some; congruence).
    destruct (begin_plus_any b fs (Z.to_N i) F ltac:(unfold lenN; lia)) as (x & X & _ & I). assert (x = it) as -> by congruence.
    destruct (I (G _)) as (c & C & DD). rewrite DD. replace (N.to_nat (Z.to_N i)) with (Z.to_nat i) in C by lia. congruence.
  - destruct (positions_any b fs 0 0 NE F ltac:(lia) ltac:(lia)) as (x0 & y0 & X0 & _). change (Z.to_N 0) with 0. cbn. rewrite Nat.add_comm. reflexivity.
  - lia.
  - split; [lia|]. apply N2Z.inj_lt in K. rewrite N2Z.inj_pow, nat_N_Z in K. exact K.
  - unfold lenN; lia.
  - unfold lenN; lia.
  - exists it'. split; [reflexivity|]. replace (lenN before) with (Z.to_N (Z.of_nat (length before))) by (unfold lenN; lia). exact R.
Qed.

(** A piece with no characters in the middle: the iterator in the middle cannot be read. *)
Lemma fs_bisect_gap : exists fs less before after, fits fs /\ split_at less (text fs) before after /\
  forall b k, lenN (text fs) < 2 ^ N.of_nat k -> fs_bisect b fs less (S k) (begin_of fs) (end_of fs) = misuse b.
Proof.
  exists [Some [1]; Some []; Some [2]], (fun c => c <? 2), [1], [2]. split; [reflexivity|]. split; [repeat split; repeat constructor|].
  intros b k K. destruct k; [cbn in K; lia|]. destruct b; vm_compute; reflexivity.
Qed.
