(** Proofs about stepping through values. *)
From Coq Require Import List Sorted Lia ZArith Reals Psatz. Import ListNotations.
From Flocq Require Import Core IEEE754.BinarySingleNaN.
From Verif Require Import Base BaseFacts Range_Model Range_Spec Range_Proofs IntRange_Proofs Maths_PropLemmas Float_Model Float_Spec Float_Proofs Interp_Proofs Walk_Spec.

Lemma visits_stop {T} cmp (step : T -> outcome T) v last : cmp v last = Some Eq -> visits cmp step v last [v].
Proof. intros E. exists 1%nat. intros [|n] L; [lia|]. cbn [walk]. now rewrite E. Qed.
Lemma visits_step {T} cmp (step : T -> outcome T) v w last l : cmp v last <> Some Eq -> step v = Ok w -> visits cmp step w last l -> visits cmp step v last (v :: l).
Proof.
  intros E S (n & H). exists (Datatypes.S n). intros [|m] L; [lia|]. cbn [walk]. rewrite S. cbn [obind]. rewrite H by lia. cbn [obind].
  destruct (cmp v last) as [[]|]; try reflexivity. now contradiction E.
Qed.

(** ** Integers *)
Definition upto (a b : Z) : list Z := map (fun k => a + Z.of_nat k)%Z (seq 0 (Z.to_nat (b - a + 1))).
Definition downto (a b : Z) : list Z := map (fun k => a - Z.of_nat k)%Z (seq 0 (Z.to_nat (a - b + 1))).
Lemma upto_cons a b : (a < b)%Z -> upto a b = a :: upto (a + 1) b.
Proof.
  intros L. unfold upto. replace (Z.to_nat (b - a + 1)) with (S (Z.to_nat (b - (a + 1) + 1))) by lia. cbn [seq map].
  f_equal; [lia|]. rewrite <- seq_shift, map_map. apply map_ext. intros k. lia.
Qed.
Lemma downto_cons a b : (b < a)%Z -> downto a b = a :: downto (a - 1) b.
Proof.
  intros L. unfold downto. replace (Z.to_nat (a - b + 1)) with (S (Z.to_nat (a - 1 - b + 1))) by lia. cbn [seq map].
  f_equal; [lia|]. rewrite <- seq_shift, map_map. apply map_ext. intros k. lia.
Qed.
Lemma upto_one a : upto a a = [a].
Proof. unfold upto. replace (Z.to_nat (a - a + 1)) with 1%nat by lia. cbn [seq map]. f_equal. lia. Qed.
Lemma downto_one a : downto a a = [a].
Proof. unfold downto. replace (Z.to_nat (a - a + 1)) with 1%nat by lia. cbn [seq map]. f_equal. lia. Qed.
Lemma zcmp_eq a b : zcmp a b = Some Eq <-> a = b.
Proof. unfold zcmp. destruct (Z.compare_spec a b); split; intros; try discriminate; try lia; auto. Qed.

Lemma int_up_visits t : usual t -> forall n a b, Z.to_nat (b - a) = n -> z_ok t a -> z_ok t b -> (a <= b)%Z -> visits zcmp (int_next t) a b (upto a b).
Proof.
  intros U n. induction n as [|n IH]; intros a b N' A B L.
  - assert (a = b) as <- by lia. rewrite upto_one. apply visits_stop. now apply zcmp_eq.
  - assert (a < b)%Z by lia. rewrite upto_cons by lia. unfold z_ok in *.
    apply (visits_step _ _ _ (a + 1)%Z); [rewrite zcmp_eq; lia|apply (int_neighbours t a U A); lia|]. apply IH; unfold z_ok; lia.
Qed.
Lemma int_down_visits t : usual t -> forall n a b, Z.to_nat (a - b) = n -> z_ok t a -> z_ok t b -> (b <= a)%Z -> visits zcmp (int_prev t) a b (downto a b).
Proof.
  intros U n. induction n as [|n IH]; intros a b N' A B L.
  - assert (a = b) as <- by lia. rewrite downto_one. apply visits_stop. now apply zcmp_eq.
  - assert (b < a)%Z by lia. rewrite downto_cons by lia. unfold z_ok in *.
    apply (visits_step _ _ _ (a - 1)%Z); [rewrite zcmp_eq; lia|apply (int_neighbours t a U A); lia|]. apply IH; unfold z_ok; lia.
Qed.
Lemma int_up t a b : usual t -> z_ok t a -> z_ok t b -> (a <= b)%Z ->
  visits zcmp (int_next t) a b (map (fun k => a + Z.of_nat k)%Z (seq 0 (Z.to_nat (b - a + 1)))).
Proof. intros U. exact (int_up_visits t U _ a b eq_refl). Qed.
Lemma int_down t a b : usual t -> z_ok t a -> z_ok t b -> (b <= a)%Z ->
  visits zcmp (int_prev t) a b (map (fun k => a - Z.of_nat k)%Z (seq 0 (Z.to_nat (a - b + 1)))).
Proof. intros U. exact (int_down_visits t U _ a b eq_refl). Qed.

(** ** Floating point *)
Section Format.
Context (prec emax : Z) (Hp : Prec_gt_0 prec) (He : Prec_lt_emax prec emax).
Notation flt := (binary_float prec emax).
Local Open Scope R_scope.
Notation least := (3 - emax - prec)%Z.

(** Every value is a multiple of the least one. *)
Lemma multiple (x : flt) : exists m : Z, B2R x = IZR m * bpow radix2 least.
Proof.
  pose proof (generic_format_B2R prec emax x) as G. apply (generic_format_FIX_FLT radix2 least prec) in G. apply FIX_format_generic in G.
  destruct G as [[m e] E1 E2]. cbn in E2. subst e. exists m. rewrite E1. reflexivity.
Qed.
Lemma bpos : 0 < bpow radix2 least.
Proof. apply bpow_gt_0. Qed.
Lemma mul_lt m n : IZR m * bpow radix2 least < IZR n * bpow radix2 least <-> (m < n)%Z.
Proof.
  split; intros H.
  - apply lt_IZR. apply (Rmult_lt_reg_r (bpow radix2 least)); [exact bpos|exact H].
  - apply Rmult_lt_compat_r; [exact bpos|]. now apply IZR_lt.
Qed.
Lemma cmp_eq (x y : flt) : fin x -> fin y -> Bcompare x y = Some Eq <-> B2R x = B2R y.
Proof.
  intros X Y. rewrite Bcompare_correct by assumption. destruct (Rcompare_spec (B2R x) (B2R y)); split; intros; try discriminate; try lra; auto.
Qed.
Lemma up_visits : forall n (x last : flt) mx ml, fin x -> fin last -> B2R x = IZR mx * bpow radix2 least -> B2R last = IZR ml * bpow radix2 least ->
  (mx <= ml)%Z -> (Z.to_nat (ml - mx) <= n)%nat ->
  exists l, visits Bcompare (fun v => Ok (flt_next v)) x last l /\ Forall (fun z => fin z) l /\ StronglySorted (fun a b => B2R a < B2R b) l /\
    forall y : flt, fin y -> (B2R x <= B2R y <= B2R last) <-> exists z, In z l /\ B2R z = B2R y.
Proof.
  assert (STOP : forall x last : flt, fin x -> fin last -> B2R x = B2R last ->
    exists l, visits Bcompare (fun v => Ok (flt_next v)) x last l /\ Forall (fun z => fin z) l /\ StronglySorted (fun a b => B2R a < B2R b) l /\
      forall y : flt, fin y -> (B2R x <= B2R y <= B2R last) <-> exists z, In z l /\ B2R z = B2R y).
  { intros x last X L E. exists [x]. split; [apply visits_stop; now apply cmp_eq|]. split; [now constructor|]. split; [repeat constructor|].
    intros y Y. split; [intros H; exists x; split; [now left|lra]|]. intros (z & [<-|[]] & H). lra. }
  induction n as [|n IH]; intros x last mx ml X L EX EL LE N'.
  - apply STOP; auto. rewrite EX, EL. do 2 f_equal. lia.
  - destruct (Z.eq_dec mx ml) as [->|NE]; [apply STOP; auto; congruence|].
    assert (LT : B2R x < B2R last) by (rewrite EX, EL; apply mul_lt; lia).
    assert (XM : B2R x < B2R (flt_max : flt)) by (pose proof (le_max prec emax Hp He last L); lra).
    destruct (next_least prec emax Hp He x X XM) as (FN & UP & LEAST). destruct (multiple (flt_next x)) as [mn EN].
    assert (H1 : (mx < mn)%Z) by (apply mul_lt; rewrite <- EX, <- EN; exact UP).
    assert (H2 : B2R (flt_next x) <= B2R last) by (apply LEAST; [exact L|exact LT]).
    assert (H3 : (mn <= ml)%Z). { apply Z.nlt_ge. intros K. apply mul_lt in K. rewrite <- EN, <- EL in K. lra. }
    destruct (IH (flt_next x) last mn ml FN L EN EL H3 ltac:(lia)) as (l & V & F & S & M). exists (x :: l).
    split; [apply (visits_step _ _ _ (flt_next x)); [rewrite cmp_eq by assumption; lra|reflexivity|exact V]|].
    split; [now constructor|]. split.
    + constructor; [exact S|]. apply Forall_forall. intros z Z. assert (FZ : fin z) by (rewrite Forall_forall in F; auto).
      assert (K : B2R (flt_next x) <= B2R z <= B2R last) by (apply M; [exact FZ|]; exists z; auto). lra.
    + intros y Y. split.
      * intros [A B]. destruct (Req_dec (B2R y) (B2R x)) as [E|NE']; [exists x; split; [now left|lra]|].
        destruct (proj1 (M y Y)) as (z & Z & E); [|exists z; split; [now right|exact E]]. split; [|exact B]. apply LEAST; [exact Y|lra].
      * intros (z & [<-|Z] & E); [lra|]. assert (K : B2R (flt_next x) <= B2R y <= B2R last) by (apply M; [exact Y|]; exists z; auto). lra.
Qed.
Lemma float_up (first last : flt) : fin first -> fin last -> B2R first <= B2R last ->
  exists l, visits Bcompare (fun v => Ok (flt_next v)) first last l /\ Forall (fun z => fin z) l /\ StronglySorted (fun a b => B2R a < B2R b) l /\
    forall y : flt, fin y -> (B2R first <= B2R y <= B2R last) <-> exists z, In z l /\ B2R z = B2R y.
Proof.
  intros F L LE. destruct (multiple first) as [mx EX]. destruct (multiple last) as [ml EL].
  apply (up_visits (Z.to_nat (ml - mx)) first last mx ml); auto. apply Z.nlt_ge. intros K. apply mul_lt in K. rewrite <- EX, <- EL in K. lra.
Qed.

Lemma down_visits : forall n (x last : flt) mx ml, fin x -> fin last -> B2R x = IZR mx * bpow radix2 least -> B2R last = IZR ml * bpow radix2 least ->
  bpow radix2 (2 - emax) <= B2R last -> (ml <= mx)%Z -> (Z.to_nat (mx - ml) <= n)%nat ->
  exists l, visits Bcompare (fun v => Ok (flt_prev v)) x last l /\ Forall (fun z => fin z) l /\ StronglySorted (fun a b => B2R b < B2R a) l /\
    forall y : flt, fin y -> (B2R last <= B2R y <= B2R x) <-> exists z, In z l /\ B2R z = B2R y.
Proof.
  assert (STOP : forall x last : flt, fin x -> fin last -> B2R x = B2R last ->
    exists l, visits Bcompare (fun v => Ok (flt_prev v)) x last l /\ Forall (fun z => fin z) l /\ StronglySorted (fun a b => B2R b < B2R a) l /\
      forall y : flt, fin y -> (B2R last <= B2R y <= B2R x) <-> exists z, In z l /\ B2R z = B2R y).
  { intros x last X L E. exists [x]. split; [apply visits_stop; now apply cmp_eq|]. split; [now constructor|]. split; [repeat constructor|].
    intros y Y. split; [intros H; exists x; split; [now left|lra]|]. intros (z & [<-|[]] & H). lra. }
  induction n as [|n IH]; intros x last mx ml X L EX EL NORM LE N'.
  - apply STOP; auto. rewrite EX, EL. do 2 f_equal. lia.
  - destruct (Z.eq_dec mx ml) as [->|NE]; [apply STOP; auto; congruence|].
    assert (LT : B2R last < B2R x) by (rewrite EX, EL; apply mul_lt; lia).
    assert (XM : bpow radix2 (2 - emax) < B2R x) by lra.
    destruct (prev_greatest prec emax Hp He x X XM) as (FN & DN & MOST). destruct (multiple (flt_prev x)) as [mn EN].
    assert (H1 : (mn < mx)%Z) by (apply mul_lt; rewrite <- EX, <- EN; exact DN).
    assert (H2 : B2R last <= B2R (flt_prev x)) by (apply MOST; [exact L|exact LT]).
    assert (H3 : (ml <= mn)%Z). { apply Z.nlt_ge. intros K. apply mul_lt in K. rewrite <- EN, <- EL in K. lra. }
    destruct (IH (flt_prev x) last mn ml FN L EN EL NORM H3 ltac:(lia)) as (l & V & F & S & M). exists (x :: l).
    split; [apply (visits_step _ _ _ (flt_prev x)); [rewrite cmp_eq by assumption; lra|reflexivity|exact V]|].
    split; [now constructor|]. split.
    + constructor; [exact S|]. apply Forall_forall. intros z Z. assert (FZ : fin z) by (rewrite Forall_forall in F; auto).
      assert (K : B2R last <= B2R z <= B2R (flt_prev x)) by (apply M; [exact FZ|]; exists z; auto). lra.
    + intros y Y. split.
      * intros [A B]. destruct (Req_dec (B2R y) (B2R x)) as [E|NE']; [exists x; split; [now left|lra]|].
        destruct (proj1 (M y Y)) as (z & Z & E); [|exists z; split; [now right|exact E]]. split; [exact A|]. apply MOST; [exact Y|lra].
      * intros (z & [<-|Z] & E); [lra|]. assert (K : B2R last <= B2R y <= B2R (flt_prev x)) by (apply M; [exact Y|]; exists z; auto). lra.
Qed.
Lemma float_down (first last : flt) : fin first -> fin last -> bpow radix2 (2 - emax) <= B2R last -> B2R last <= B2R first ->
  exists l, visits Bcompare (fun v => Ok (flt_prev v)) first last l /\ Forall (fun z => fin z) l /\ StronglySorted (fun a b => B2R b < B2R a) l /\
    forall y : flt, fin y -> (B2R last <= B2R y <= B2R first) <-> exists z, In z l /\ B2R z = B2R y.
Proof.
  intros F L NORM LE. destruct (multiple first) as [mx EX]. destruct (multiple last) as [ml EL].
  apply (down_visits (Z.to_nat (mx - ml)) first last mx ml); auto. apply Z.nlt_ge. intros K. apply mul_lt in K. rewrite <- EX, <- EL in K. lra.
Qed.
(** Above the smallest normal number the loop stays there; below it goes up to it. *)
Lemma prev_stays (x : flt) : fin x -> bpow radix2 (2 - emax) <= B2R x -> fin (flt_prev x) /\ bpow radix2 (2 - emax) <= B2R (flt_prev x).
Proof.
  intros X L. destruct (Rle_lt_or_eq_dec _ _ L) as [LT|EQ].
  - destruct (prev_greatest prec emax Hp He x X LT) as (F & _ & M). split; [exact F|].
    destruct (min_value prec emax Hp He) as [E G]. rewrite <- E. apply M; [exact G|]. now rewrite E.
  - destruct (prev_wrong_way prec emax Hp He x X) as [_ H]; [lra|]. destruct (H (eq_sym EQ)) as [F E]. split; [exact F|lra].
Qed.
Lemma prev_rises (x : flt) : fin x -> fin (flt_prev x) /\ (B2R x < bpow radix2 (2 - emax) -> B2R x < B2R (flt_prev x)).
Proof.
  intros X. destruct (Rle_lt_dec (bpow radix2 (2 - emax)) (B2R x)) as [L|L].
  - split; [now apply prev_stays|lra].
  - destruct (prev_wrong_way prec emax Hp He x X) as [H _]; [lra|]. destruct (H L) as (F & U & _). auto.
Qed.
Lemma never_down (first last : flt) : fin first -> fin last -> B2R last < B2R first -> B2R last < bpow radix2 (2 - emax) ->
  never_ends Bcompare (fun v => Ok (flt_prev v)) first last.
Proof.
  intros F L LT NORM rounds. revert first F LT. induction rounds as [|n IH]; intros first F LT; [reflexivity|]. cbn [walk].
  assert (NE : Bcompare first last <> Some Eq) by (rewrite cmp_eq by assumption; lra).
  replace (match Bcompare first last with Some Eq => true | _ => false end) with false by (destruct (Bcompare first last) as [[]|]; congruence).
  cbn [obind]. destruct (prev_rises first F) as [FN UP]. rewrite IH; [reflexivity|exact FN|].
  destruct (Rle_lt_dec (bpow radix2 (2 - emax)) (B2R first)) as [K|K]; [pose proof (proj2 (prev_stays first F K)); lra|specialize (UP K); lra].
Qed.
Lemma never_up (first last : flt) : fin first -> fin last -> B2R last < B2R first -> never_ends Bcompare (fun v => Ok (flt_next v)) first last.
Proof.
  intros F L LT rounds. revert first F LT. induction rounds as [|n IH]; intros first F LT; [reflexivity|]. cbn [walk].
  assert (NE : Bcompare first last <> Some Eq) by (rewrite cmp_eq by assumption; lra).
  replace (match Bcompare first last with Some Eq => true | _ => false end) with false by (destruct (Bcompare first last) as [[]|]; congruence).
  cbn [obind]. destruct (Rlt_le_dec (B2R first) (B2R (flt_max : flt))) as [K|K].
  - destruct (next_least prec emax Hp He first F K) as (FN & UP & _). rewrite IH; [reflexivity|exact FN|lra].
  - rewrite (next_at_max prec emax Hp He first F) by lra. rewrite IH; [reflexivity|apply max_finite|]. pose proof (le_max prec emax Hp He first F). lra.
Qed.
End Format.
Lemma one_value : B2R (of_int 1) = 1%R.
Proof. exact (proj1 (of_int_exact 1 ltac:(lia))). Qed.
Lemma down_refuted : exists first last : double, first = of_int 1 /\ last = of_int 0 /\ fin first /\ fin last /\ (B2R last < B2R first)%R /\
  never_ends Bcompare (fun v => Ok (flt_prev v)) first last.
Proof.
  destruct (of_int_exact 1 ltac:(lia)) as [V1 F1]. destruct (of_int_exact 0 ltac:(lia)) as [V0 F0].
  assert (L : (B2R (of_int 0) < B2R (of_int 1))%R) by (rewrite V0, V1; apply IZR_lt; lia).
  exists (of_int 1), (of_int 0). do 2 (split; [reflexivity|]). split; [exact F1|]. split; [exact F0|]. split; [exact L|].
  apply never_down; [exact F1|exact F0|exact L|]. rewrite V0. apply bpow_gt_0.
Qed.
