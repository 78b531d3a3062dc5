(** Proofs about halving a range. *)
From Coq Require Import List ZArith Lia. Import ListNotations.
From Verif Require Import Base BaseFacts Range_Model Range_Spec IntRange_Proofs Maths_PropLemmas Halve_Spec.
Local Open Scope Z_scope.

Lemma set_min_any b t lk hk r m : usual t -> z_ok t m -> z_ok t (vmax r) -> m < vmax r -> b = Release \/ lk = closed \/ hk = closed ->
  set_min zcmp b lk hk (int_next t) r m = Ok (VR m (vmax r)).
Proof.
  intros U M X L K. assert (C : b = Release \/ b <> Release) by (destruct b; [now left|right; discriminate|right; discriminate]). destruct C as [->|D]; [reflexivity|].
  destruct K as [->|K]; [now destruct D|]. apply (set_min_int b t lk hk r m U M); [unfold z_ok in X; lia|exact D|].
  destruct K as [->| ->].
  - exists m. unfold in_interval, after_start, before_end, lt_of. cbn [vmin vmax]. destruct hk; lia.
  - exists (vmax r). unfold in_interval, after_start, before_end, lt_of. cbn [vmin vmax]. destruct lk; lia.
Qed.
Lemma set_max_any b t lk hk r m : usual t -> z_ok t m -> z_ok t (vmin r) -> vmin r < m -> b = Release \/ lk = closed \/ hk = closed ->
  set_max zcmp b lk hk (int_prev t) r m = Ok (VR (vmin r) m).
Proof.
  intros U M X L K. assert (C : b = Release \/ b <> Release) by (destruct b; [now left|right; discriminate|right; discriminate]). destruct C as [->|D]; [reflexivity|].
  destruct K as [->|K]; [now destruct D|]. apply (set_max_int b t lk hk r m U M); [unfold z_ok in X; lia|exact D|].
  destruct K as [->| ->].
  - exists (vmin r). unfold in_interval, after_start, before_end, lt_of. cbn [vmin vmax]. destruct hk; lia.
  - exists m. unfold in_interval, after_start, before_end, lt_of. cbn [vmin vmax]. destruct lk; lia.
Qed.
Lemma halve_ok b t lk hk yes : usual t -> b = Release \/ lk = closed \/ hk = closed -> forall k lo hi, z_ok t lo -> z_ok t hi -> lo < hi -> hi - lo <= it_hi t -> hi - lo <= 2 ^ Z.of_nat k ->
  exists x, halve (S k) b t lk hk yes (VR lo hi) = Ok (VR x (x + 1)) /\ lo <= x < hi /\ (x = lo \/ yes x = false) /\ (x + 1 = hi \/ yes (x + 1) = true).
Proof.
  intros U K. induction k as [|k IH]; intros lo hi Zl Zh L F S; destruct (size_mid b t (VR lo hi) U Zl Zh) as (SZ & m & M & MI & HW); try (cbn [vmin vmax]; lia).
  - cbn [halve]. rewrite SZ. cbn [obind vmin vmax]. change (2 ^ Z.of_nat 0) with 1 in S. rewrite (proj2 (Z.leb_le _ _)) by lia.
    exists lo. replace hi with (lo + 1) by lia. repeat split; try lia; now left.
  - cbn [vmin vmax] in *. rewrite Nat2Z.inj_succ, Z.pow_succ_r in S by lia. unfold half_way in HW.
    change (halve (Datatypes.S (Datatypes.S k)) b t lk hk yes (VR lo hi)) with
      (let! s := vr_size b t (VR lo hi) in if s <=? 1 then Ok (VR lo hi) else
       let! m := vr_mid b t (VR lo hi) in
       let! r' := (if yes m then set_max zcmp b lk hk (int_prev t) (VR lo hi) m else set_min zcmp b lk hk (int_next t) (VR lo hi) m) in
       halve (Datatypes.S k) b t lk hk yes r').
    rewrite SZ. cbn [obind]. destruct (Z.leb_spec (hi - lo) 1) as [E|E].
    + exists lo. replace hi with (lo + 1) by lia. repeat split; try lia; now left.
    + rewrite M. cbn [obind]. unfold z_ok in *. destruct (yes m) eqn:Y.
      * rewrite set_max_any by (cbn [vmin]; unfold z_ok; auto; lia). cbn [obind vmin].
        destruct (IH lo m) as (x & A & B & C & D); try lia. exists x. split; [exact A|]. split; [lia|]. split; [exact C|]. right. destruct D as [D|D]; [now rewrite D|exact D].
      * rewrite set_min_any by (cbn [vmax]; unfold z_ok; auto; lia). cbn [obind vmax].
        destruct (IH m hi) as (x & A & B & C & D); try lia. exists x. split; [exact A|]. split; [lia|]. split; [|exact D]. right. destruct C as [C|C]; [now rewrite C|exact C].
Qed.
Lemma halve_first b t lk hk yes : usual t -> b = Release \/ lk = closed \/ hk = closed -> forall k lo hi, z_ok t lo -> z_ok t hi -> lo < hi -> hi - lo <= it_hi t -> hi - lo <= 2 ^ Z.of_nat k ->
  (forall x y, x <= y -> yes x = true -> yes y = true) -> yes lo = false -> yes hi = true ->
  exists x, halve (S k) b t lk hk yes (VR lo hi) = Ok (VR x (x + 1)) /\ forall y, yes y = true <-> x + 1 <= y.
Proof.
  intros U K k lo hi Zl Zh L F S MO Yl Yh. destruct (halve_ok b t lk hk yes U K k lo hi Zl Zh L F S) as (x & A & B & C & D). exists x. split; [exact A|].
  assert (C' : yes x = false) by (destruct C as [->|C]; assumption). assert (D' : yes (x + 1) = true) by (destruct D as [->|D]; assumption).
  intros y. split; intros Y; [|now apply (MO (x + 1))]. destruct (Z.le_gt_cases (x + 1) y) as [|G]; [assumption|]. rewrite (MO y x) in C' by (try lia; assumption). discriminate.
Qed.
Lemma mid_in b t lo hi : usual t -> z_ok t lo -> z_ok t hi -> lo < hi -> hi - lo <= it_hi t ->
  exists m, vr_mid b t (VR lo hi) = Ok m /\ (contains zcmp closed opened (VR lo hi) m = true <-> 2 <= hi - lo) /\ (hi - lo = 1 -> m = hi).
Proof.
  intros U Zl Zh L F. destruct (size_mid b t (VR lo hi) U Zl Zh) as (_ & m & M & MI & HW); try (cbn [vmin vmax]; lia). cbn [vmin vmax] in *. unfold half_way in HW.
  exists m. split; [exact M|]. split; [|lia]. unfold contains, below_min, above_max. cbn [vmin vmax]. unfold c_lt, c_gt, c_ge, c_le, zcmp. cbn.
  destruct (Z.compare_spec m lo); destruct (Z.compare_spec m hi); cbn; split; intros; try discriminate; try reflexivity; lia.
Qed.
Lemma first_stuck b t lo : usual t -> z_ok t lo -> z_ok t (lo + 1) -> forall yes rounds, yes (lo + 1) = true -> first_yes rounds b t yes (VR lo (lo + 1)) = Diverge.
Proof.
  intros U Zl Zh yes rounds Y. assert (F : lo + 1 - lo <= it_hi t) by (unfold usual in U; unfold it_hi; destruct t as [sg bits]; cbn in *; destruct U as [<-|[<-|[<-|[<-|[]]]]]; destruct sg; cbn; lia).
  induction rounds as [|k IH]; [reflexivity|]. cbn [first_yes]. unfold vr_empty. cbn [vmin vmax]. 
  replace (c_eq zcmp lo (lo + 1)) with false by (unfold c_eq, zcmp; cbn; destruct (Z.compare_spec lo (lo + 1)); [lia|reflexivity|lia]).
  destruct (mid_in b t lo (lo + 1) U Zl Zh) as (m & M & _ & E); try lia. rewrite M. cbn [obind]. rewrite E by lia. rewrite Y.
  rewrite set_max_any by (cbn [vmin]; auto; lia). exact IH.
Qed.
