(** Proofs about algorithms over the iterators of a static_vector. *)
From Coq Require Import List ZArith Lia. Import ListNotations.
From Verif Require Import Base BaseFacts Iter_Model Sv_Model SvIter_Model Coll_Spec Sv_Proofs Coll_PropLemmas Algo_Spec.

Section Algo.
Context {V : Type}.
Lemma holds_slots (v : svec V) l k x : holds v l -> nth_error l k = Some x -> exists s, nth_error (sv_slots v) k = Some s /\ sl_val s = Some x.
Proof.
  intros (_ & H) E. specialize (H k x E). unfold sv_index in H. rewrite Nnat.Nat2N.id in H.
  destruct (nth_error (sv_slots v) k) as [s|]; [|discriminate]. exists s. split; [reflexivity|]. destruct (sl_val s); [congruence|discriminate].
Qed.
Lemma holds_len (v : svec V) l : holds v l -> (length l <= length (sv_slots v))%nat.
Proof.
  intros H. destruct l as [|a q] eqn:E; [cbn; lia|]. rewrite <- E in *. 
  assert (L : (length l - 1 < length l)%nat) by (rewrite E; cbn; lia).
  destruct (nth_error l (length l - 1)) as [x|] eqn:X; [|apply nth_error_None in X; lia].
  destruct (holds_slots v l _ x H X) as (s & A & _). assert (nth_error (sv_slots v) (length l - 1) <> None) as B by congruence. apply nth_error_Some in B. lia.
Qed.
Lemma holds_raw (v : svec V) l : holds v l -> exists rest, sv_raw v = map Some l ++ rest.
Proof.
  intros H. exists (skipn (length l) (sv_raw v)). rewrite <- (firstn_skipn (length l) (sv_raw v)) at 1. f_equal.
  assert (X : forall k, nth_error (firstn (length l) (sv_raw v)) k = nth_error (map Some l) k).
  { intros k. rewrite nth_error_map. destruct (nth_error l k) as [x|] eqn:E.
    - destruct (holds_slots v l k x H E) as (s & A & B). assert (L : (k < length l)%nat) by (apply nth_error_Some; congruence).
      assert (F : forall (m : nat) (q : list (option V)), (k < m)%nat -> nth_error (firstn m q) k = nth_error q k).
      { clear. revert k. intros k m q. revert k m. induction q as [|a q IH]; intros [|k] [|m] L; try lia; try reflexivity. cbn. apply IH. lia. }
      rewrite F by assumption. unfold sv_raw. rewrite nth_error_map, A. cbn. now rewrite B.
    - apply nth_error_None in E. cbn. apply nth_error_None. rewrite firstn_length. lia. }
  revert X. generalize (firstn (length l) (sv_raw v)) (map Some l). clear. intros a. induction a as [|x a IH]; intros [|y c] X; try reflexivity.
  - discriminate (X 0%nat).
  - discriminate (X 0%nat).
  - f_equal; [specialize (X 0%nat); now injection X|]. apply IH. intros k. exact (X (S k)).
Qed.
Lemma nth_put l : forall k (v : V) j, nth_error (put_nth l k v) j = if Nat.eqb j k then option_map (fun _ => v) (nth_error l j) else nth_error l j.
Proof. induction l as [|x q IH]; intros [|k] v [|j]; cbn [put_nth nth_error Nat.eqb option_map]; try reflexivity; [now destruct (Nat.eqb j k)|apply IH]. Qed.
Lemma len_put l : forall k (v : V), length (put_nth l k v) = length l.
Proof. induction l as [|x q IH]; intros [|k] v; cbn; auto. Qed.
Lemma nth_upd f (l : list (slot V)) : forall k j, (k < length l)%nat ->
  nth_error (upd_slots f (N.of_nat k) 1 l) j = if Nat.eqb j k then option_map f (nth_error l j) else nth_error l j.
Proof.
  intros k j. unfold upd_slots, takeN, dropN. replace (N.to_nat (N.of_nat k + 1)) with (S k) by lia. rewrite Nnat.Nat2N.id. change (N.to_nat 1) with 1%nat.
  revert k j. induction l as [|x q IH]; intros k j L; [cbn in L; lia|]. destruct k as [|k].
  - cbn [firstn skipn app map]. destruct j; reflexivity.
  - cbn [firstn skipn app]. destruct j as [|j]; [reflexivity|]. cbn [nth_error Nat.eqb]. apply IH. cbn in L. lia.
Qed.
Lemma write_holds (v : svec V) l k x y : holds v l -> nth_error l k = Some y ->
  exists v', sv_index_write v (N.of_nat k) x = (Ok tt, v') /\ holds v' (put_nth l k x).
Proof.
  intros H E. pose proof (proj2 H k y E) as I. unfold sv_index_write. rewrite I. eexists. split; [reflexivity|].
  assert (L : (k < length l)%nat) by (apply nth_error_Some; congruence). pose proof (holds_len v l H) as LL. split.
  - unfold sv_size. cbn [sv_count]. unfold lenN. rewrite len_put. exact (proj1 H).
  - intros j z Z. rewrite nth_put in Z. unfold sv_index. cbn [sv_slots]. rewrite Nnat.Nat2N.id, nth_upd by lia.
    destruct (Nat.eqb_spec j k) as [->|N].
    + rewrite E in Z. cbn in Z. injection Z as <-. destruct (holds_slots v l k y H E) as (s & A & B). rewrite A. cbn [option_map]. unfold slot_write. now rewrite B.
    + destruct (holds_slots v l j z H Z) as (s & A & B). rewrite A. now rewrite B.
Qed.
Lemma pos_same (p : N -> svec V) i n z : pointee p (at_pos i n z) = sv_raw (p i). Proof. reflexivity. Qed.

Definition same_place (i : N) (n : nat) (r : nat -> diter) (q : nat -> Z) : Prop := forall x, r x = at_pos i (N.of_nat n) (q x).
Lemma set_place i n r q x z : same_place i n r q -> same_place i n (set r x (at_pos i (N.of_nat n) z)) (set q x z).
Proof. intros H y. unfold set. destruct (Nat.eqb y x); [reflexivity|apply H]. Qed.
Lemma set_in (q : nat -> Z) n x z : (forall y, 0 <= q y <= n)%Z -> (0 <= z <= n)%Z -> forall y, (0 <= set q x z y <= n)%Z.
Proof. intros H Z y. unfold set. destruct (Nat.eqb y x); [exact Z|apply H]. Qed.
Lemma run_ok (b : build) (te : bool) i (a : algo V) : (te = true -> b = Release) ->
  forall r q (p : N -> svec V) l l', holds (p i) l -> same_place i (length l) r q -> (forall x, 0 <= q x <= Z.of_nat (length l))%Z ->
  on_list te a q l = Some l' ->
  exists p', on_iterators b a r p = Ok p' /\ holds (p' i) l' /\ forall j, j <> i -> p' j = p j.
Proof.
  intros TE. induction a as [|x y next IH|x next IH|x next IH|x off next IH|x y next IH|x y next IH|x y next IH|x next IH|x v next IH];
    intros r q p l l' H S I E; cbn [on_list] in E; cbn [on_iterators].
  - injection E as <-. exists p. auto.
  - rewrite (S y). apply (IH _ (set q x (q y)) p l l'); auto using set_place, set_in.
  - destruct (Z.ltb_spec (q x) (Z.of_nat (length l))) as [L|L]; [|discriminate]. rewrite (S x), pos_same.
    assert (A : di_inc b (sv_raw (p i)) (at_pos i (N.of_nat (length l)) (q x)) = Ok (at_pos i (N.of_nat (length l)) (q x + 1))).
    { pose proof (holds_len _ _ H) as LL. assert (RL : lenN (sv_raw (p i)) = N.of_nat (length (sv_slots (p i)))) by (unfold lenN, sv_raw; now rewrite map_length).
      assert (C : b = Release \/ debug b) by (destruct b; [now left|right; discriminate|right; discriminate]). destruct C as [->|D].
      - apply (release_arith (sv_raw (p i)) i (N.of_nat (length l)) (q x) 1); [specialize (I x); lia|reflexivity].
      - pose proof (debug_step (sv_raw (p i)) b i (N.of_nat (length l)) (q x) D) as (X & _); [lia|specialize (I x); lia|].
        rewrite (proj2 (Z.ltb_lt _ _)) in X by lia. exact X. }
    rewrite A. cbn [obind]. apply (IH _ (set q x (q x + 1)%Z) p l l'); auto using set_place. apply set_in; [assumption|specialize (I x); lia].
  - destruct (Z.ltb_spec 0 (q x)) as [L|L]; [|discriminate]. rewrite (S x), pos_same.
    assert (A : di_dec b (sv_raw (p i)) (at_pos i (N.of_nat (length l)) (q x)) = Ok (at_pos i (N.of_nat (length l)) (q x - 1))).
    { pose proof (holds_len _ _ H) as LL. assert (RL : lenN (sv_raw (p i)) = N.of_nat (length (sv_slots (p i)))) by (unfold lenN, sv_raw; now rewrite map_length).
      assert (C : b = Release \/ debug b) by (destruct b; [now left|right; discriminate|right; discriminate]). destruct C as [->|D].
      - apply (release_arith (sv_raw (p i)) i (N.of_nat (length l)) (q x) (-1)); [specialize (I x); lia|reflexivity].
      - pose proof (debug_step (sv_raw (p i)) b i (N.of_nat (length l)) (q x) D) as (_ & X); [lia|specialize (I x); lia|].
        rewrite (proj2 (Z.ltb_lt _ _)) in X by lia. exact X. }
    rewrite A. cbn [obind]. apply (IH _ (set q x (q x - 1)%Z) p l l'); auto using set_place. apply set_in; [assumption|specialize (I x); lia].
  - destruct ((0 <=? q x + off)%Z && ((q x + off <? Z.of_nat (length l))%Z || te && (q x + off =? Z.of_nat (length l))%Z)) eqn:G; [|discriminate].
    apply Bool.andb_true_iff in G. destruct G as (G1 & G2). apply Z.leb_le in G1. apply Bool.orb_true_iff in G2. rewrite (S x), pos_same.
    assert (Q : (q x + off <= Z.of_nat (length l))%Z) by (destruct G2 as [G2|G2]; [apply Z.ltb_lt in G2; lia|apply Bool.andb_true_iff in G2; destruct G2 as (_ & G2); apply Z.eqb_eq in G2; lia]).
    assert (A : di_add_assign b (sv_raw (p i)) (at_pos i (N.of_nat (length l)) (q x)) off = Ok (at_pos i (N.of_nat (length l)) (q x + off))).
    { pose proof (holds_len _ _ H) as LL. assert (RL : lenN (sv_raw (p i)) = N.of_nat (length (sv_slots (p i)))) by (unfold lenN, sv_raw; now rewrite map_length).
      assert (C : b = Release \/ debug b) by (destruct b; [now left|right; discriminate|right; discriminate]). destruct C as [->|D].
      - apply (release_arith (sv_raw (p i)) i (N.of_nat (length l)) (q x) off). lia.
      - destruct G2 as [G2|G2]; [|apply Bool.andb_true_iff in G2; destruct G2 as (G2 & _); destruct (D (TE G2))].
        apply Z.ltb_lt in G2. pose proof (debug_jump (sv_raw (p i)) b i (N.of_nat (length l)) (q x) off D) as X. cbn zeta in X.
        rewrite (proj2 (Z.leb_le _ _)), (proj2 (Z.ltb_lt _ _)) in X by lia. cbn [andb] in X. apply X. lia. }
    rewrite A. cbn [obind]. apply (IH _ (set q x (q x + off)%Z) p l l'); auto using set_place. apply set_in; [assumption|lia].
  - rewrite (S x), (S y). replace (di_eq _ _) with (q x =? q y)%Z by reflexivity. now apply (IH _ r q p l l').
  - rewrite (S x), (S y). destruct (relations b i (N.of_nat (length l)) (q x) (q y)) as (_ & A & _). rewrite A. cbn [obind]. now apply (IH _ r q p l l').
  - rewrite (S x), (S y). destruct (relations b i (N.of_nat (length l)) (q x) (q y)) as (A & _). rewrite A. cbn [obind]. now apply (IH _ r q p l l').
  - destruct (nth_error l (Z.to_nat (q x))) as [v|] eqn:N; [|discriminate]. destruct (holds_raw _ _ H) as (rest & R). rewrite (S x), pos_same.
    assert (A : di_deref (sv_raw (p i)) (at_pos i (N.of_nat (length l)) (q x)) = Ok v).
    { pose proof (deref_inside (sv_raw (p i)) l rest i (Z.to_nat (q x)) v R N) as X. rewrite Z2Nat.id in X by apply I. exact X. }
    rewrite A. cbn [obind]. now apply (IH _ r q p l l').
  - destruct (nth_error l (Z.to_nat (q x))) as [y|] eqn:N; [|discriminate]. rewrite (S x). unfold write_it. cbn [at_pos di_ptr di_parent].
    rewrite (proj2 (Z.ltb_ge _ _)) by apply I. destruct (write_holds (p i) l (Z.to_nat (q x)) v y H N) as (v' & A & B).
    replace (Z.to_N (q x)) with (N.of_nat (Z.to_nat (q x))) by (specialize (I x); lia). rewrite A.
    destruct (IH r q (upd p i v') (put_nth l (Z.to_nat (q x)) v) l') as (p' & P1 & P2 & P3).
    + unfold upd. now rewrite N.eqb_refl.
    + rewrite len_put. exact S.
    + rewrite len_put. exact I.
    + exact E.
    + exists p'. split; [exact P1|]. split; [exact P2|]. intros j J. rewrite P3 by assumption. unfold upd. now rewrite (proj2 (N.eqb_neq _ _)).
Qed.
Lemma algo_ok (b : build) (te : bool) (a : algo V) (i : N) (p : N -> svec V) l l' : (te = true -> b = Release) -> holds (p i) l -> on_values te a l = Some l' ->
  exists p', on_vector b a i p = Ok p' /\ holds (p' i) l' /\ forall j, j <> i -> p' j = p j.
Proof.
  intros TE H E. apply (run_ok b te i a TE _ _ p l l' H) with (3 := E).
  - intros [|x]; unfold sv_begin, sv_end, di_begin_of, di_end_of, at_pos; pose proof (proj1 H) as L; unfold sv_size, lenN in L; rewrite L; [reflexivity|]. f_equal. lia.
  - intros [|x]; lia.
Qed.

(** std::reverse and rotating by one *)
Lemma nth_mid (A : list V) x B : nth_error (A ++ x :: B) (length A) = Some x.
Proof. rewrite nth_error_app2, PeanoNat.Nat.sub_diag by lia. reflexivity. Qed.
Lemma put_mid (A : list V) x y B : put_nth (A ++ x :: B) (length A) y = A ++ y :: B.
Proof. induction A; cbn; congruence. Qed.

Lemma reverse_mid te rounds : forall (A M B : list V) q, q 0%nat = Z.of_nat (length A) -> q 1%nat = Z.of_nat (length (A ++ M)) -> (length M <= rounds)%nat ->
  on_list te (reverse rounds) q (A ++ M ++ B) = Some (A ++ rev M ++ B).
Proof.
  induction rounds as [|k IH]; intros A M B q Q0 Q1 L.
  - destruct M; [reflexivity|cbn in L; lia].
  - cbn [reverse on_list]. rewrite Q0, Q1. destruct M as [|x M].
    + rewrite app_nil_r, Z.eqb_refl. reflexivity.
    + rewrite (proj2 (Z.eqb_neq _ _)) by (rewrite app_length; cbn [length]; lia). cbn [on_list].
      rewrite Q1, (proj2 (Z.ltb_lt _ _)) by (rewrite app_length; cbn [length]; lia).
      assert (S0 : forall z, set q 1 z 0%nat = Z.of_nat (length A)) by (intros z; exact Q0).
      assert (S1 : forall z, set q 1 z 1%nat = z) by (intros z; reflexivity).
      rewrite S0, S1. destruct M as [|y M _] using rev_ind.
      * rewrite (proj2 (Z.eqb_eq _ _)) by (rewrite app_length; cbn [length]; lia). reflexivity.
      * rewrite (proj2 (Z.eqb_neq _ _)) by (rewrite app_length; cbn [length]; rewrite app_length; cbn [length]; lia).
        cbn [on_list]. rewrite !S0, !S1, !Nat2Z.id.
        assert (E1 : Z.to_nat (Z.of_nat (length (A ++ x :: M ++ [y])) - 1) = length (A ++ x :: M)) by (rewrite !app_length; cbn [length]; rewrite app_length; cbn [length]; lia).
        rewrite !E1. assert (E2 : A ++ (x :: M ++ [y]) ++ B = (A ++ x :: M) ++ y :: B) by (rewrite <- !app_assoc; cbn [app]; rewrite <- app_assoc; reflexivity).
        rewrite E2. rewrite <- E2 at 1. cbn [app]. rewrite nth_mid. rewrite nth_mid. 
        rewrite <- E2. cbn [app]. rewrite nth_mid, put_mid.
        assert (E3 : A ++ y :: (M ++ [y]) ++ B = (A ++ y :: M) ++ y :: B) by (rewrite <- !app_assoc; reflexivity). rewrite E3.
        assert (E4 : length (A ++ x :: M) = length (A ++ y :: M)) by (rewrite !app_length; reflexivity). rewrite E4, nth_mid, put_mid.
        rewrite (proj2 (Z.ltb_lt _ _)) by (rewrite !app_length; cbn [length]; lia).
        replace ((A ++ y :: M) ++ x :: B) with ((A ++ [y]) ++ M ++ x :: B) by (rewrite <- !app_assoc; reflexivity). rewrite IH.
        -- f_equal. cbn [rev]. rewrite rev_app_distr. cbn [rev app]. rewrite <- !app_assoc. reflexivity.
        -- cbn [set Nat.eqb]. unfold set. cbn [Nat.eqb]. rewrite app_length. cbn [length]. lia.
        -- unfold set. cbn [Nat.eqb]. rewrite !app_length. cbn [length]. rewrite app_length. cbn [length]. lia.
        -- cbn [length] in L. rewrite app_length in L. lia.
Qed.
Lemma reverse_list te (l : list V) : on_values te (reverse (length l)) l = Some (rev l).
Proof.
  unfold on_values. pose proof (reverse_mid te (length l) [] l [] (fun x => match x with O => 0%Z | _ => Z.of_nat (length l) end) eq_refl eq_refl (le_n _)) as R.
  cbn [app] in R. rewrite !app_nil_r in R. exact R.
Qed.
Lemma reverse_ok (b : build) (i : N) (p : N -> svec V) l : holds (p i) l ->
  exists p', on_vector b (reverse (length l)) i p = Ok p' /\ holds (p' i) (rev l) /\ forall j, j <> i -> p' j = p j.
Proof. intros H. apply (algo_ok b false _ i p l); [discriminate|exact H|apply reverse_list]. Qed.
Lemma rotate_mid te rounds : forall (A M : list V) x q, q 0%nat = Z.of_nat (length A) -> q 1%nat = Z.of_nat (length (A ++ x :: M)) -> (length M < rounds)%nat ->
  on_list te (rotate_one rounds) q (A ++ x :: M) = Some (A ++ M ++ [x]).
Proof.
  induction rounds as [|k IH]; intros A M x q Q0 Q1 L; [lia|]. cbn [rotate_one on_list].
  assert (S2 : set q 2 (q 0%nat) 2%nat = Z.of_nat (length A)) by exact Q0. rewrite S2, (proj2 (Z.ltb_lt _ _)) by (rewrite app_length; cbn [length]; lia).
  assert (T2 : forall z w, set (set q 2 z) 2 w 2%nat = w) by reflexivity.
  assert (T1 : forall z w, set (set q 2 z) 2 w 1%nat = Z.of_nat (length (A ++ x :: M))) by (intros; exact Q1).
  assert (T0 : forall z w, set (set q 2 z) 2 w 0%nat = Z.of_nat (length A)) by (intros; exact Q0).
  rewrite T2, T1. destruct M as [|y M].
  - rewrite (proj2 (Z.eqb_eq _ _)) by (rewrite app_length; cbn [length]; lia). reflexivity.
  - rewrite (proj2 (Z.eqb_neq _ _)) by (rewrite app_length; cbn [length]; lia). cbn [on_list]. rewrite !T0, !T2, !Nat2Z.id, nth_mid.
    assert (E1 : Z.to_nat (Z.of_nat (length A) + 1) = length (A ++ [x])) by (rewrite app_length; cbn [length]; lia). rewrite !E1.
    assert (E2 : A ++ x :: y :: M = (A ++ [x]) ++ y :: M) by (rewrite <- app_assoc; reflexivity).
    rewrite E2, nth_mid, <- E2, put_mid.
    assert (E3 : A ++ y :: y :: M = (A ++ [y]) ++ y :: M) by (rewrite <- app_assoc; reflexivity). rewrite E3.
    assert (E4 : length (A ++ [x]) = length (A ++ [y])) by (rewrite !app_length; reflexivity). rewrite E4, nth_mid, put_mid.
    rewrite (proj2 (Z.ltb_lt _ _)) by (rewrite !app_length; cbn [length]; lia). rewrite IH.
    + rewrite <- app_assoc. reflexivity.
    + unfold set. cbn [Nat.eqb]. rewrite app_length. cbn [length]. lia.
    + unfold set. cbn [Nat.eqb]. rewrite Q1, !app_length. cbn [length]. lia.
    + cbn [length] in L. lia.
Qed.
Lemma rotate_ok (b : build) (i : N) (p : N -> svec V) x l : holds (p i) (x :: l) ->
  exists p', on_vector b (rotate_one (S (length l))) i p = Ok p' /\ holds (p' i) (l ++ [x]) /\ forall j, j <> i -> p' j = p j.
Proof.
  intros H. apply (algo_ok b false _ i p (x :: l)); [discriminate|exact H|].
  exact (rotate_mid false (S (length l)) [] l x (fun z => match z with O => 0%Z | _ => Z.of_nat (length (x :: l)) end) eq_refl eq_refl (le_n _)).
Qed.
Lemma shows_holds cap (v : svec V) l : shows cap v l -> holds v l.
Proof.
  intros (A & _ & C). split; [exact A|]. intros k x E. specialize (C (N.of_nat k)). unfold sv_at in C. unfold sv_size in A. rewrite A in C.
  assert (L : (k < length l)%nat) by (apply nth_error_Some; congruence). rewrite (proj2 (N.leb_gt _ _)) in C by (unfold lenN; lia).
  rewrite C. unfold at_list. rewrite ?Nnat.Nat2N.id, E. reflexivity.
Qed.
Lemma history_ok b cap (moved : V -> V) veq ops xs q te a i l' : cap < 2 ^ 63 -> vec_run cap moved veq ops (fun _ => []) = Some (xs, q) ->
  (te = true -> b = Release) -> on_values te a (q i) = Some l' ->
  exists p p', sv_run b cap moved veq ops (sv_start cap) = (xs, p) /\ on_vector b a i p = Ok p' /\ holds (p' i) l' /\ forall j, j <> i -> p' j = p j.
Proof.
  intros C R TE E. destruct (sv_refines b cap moved veq ops xs q C R) as (p & P & S). exists p.
  destruct (algo_ok b te a i p (q i) l' TE (shows_holds _ _ _ (S i)) E) as (p' & X). exists p'. split; [exact P|exact X].
Qed.
Lemma fails_bind {A B} b (x : outcome A) (f : A -> outcome B) : assertion_fails b x -> assertion_fails b (obind x f).
Proof. destruct b; cbn [assertion_fails]; [tauto|intros ->; reflexivity|intros ->; reflexivity]. Qed.
Lemma out_fails (b : build) i (a : algo V) : debug b ->
  forall r q (p : N -> svec V) l, holds (p i) l -> same_place i (length l) r q -> (forall x, 0 <= q x <= Z.of_nat (length l))%Z ->
  moves_out a q l = true -> assertion_fails b (on_iterators b a r p).
Proof.
  intros D. induction a as [|x y next IH|x next IH|x next IH|x off next IH|x y next IH|x y next IH|x y next IH|x next IH|x v next IH];
    intros r q p l H S I E; cbn [moves_out] in E; cbn [on_iterators]; pose proof (holds_len _ _ H) as LL;
    assert (RL : lenN (sv_raw (p i)) = N.of_nat (length (sv_slots (p i)))) by (unfold lenN, sv_raw; now rewrite map_length).
  - discriminate.
  - rewrite (S y). apply (IH _ (set q x (q y)) p l); auto using set_place, set_in.
  - rewrite (S x), pos_same. pose proof (debug_step (sv_raw (p i)) b i (N.of_nat (length l)) (q x) D) as (X & _); [lia|specialize (I x); lia|].
    replace (Z.of_N (N.of_nat (length l))) with (Z.of_nat (length l)) in X by lia.
    destruct (Z.ltb_spec (q x) (Z.of_nat (length l))) as [L|L]; [|now apply fails_bind].
    rewrite X. cbn [obind]. apply (IH _ (set q x (q x + 1)%Z) p l); auto using set_place. apply set_in; [assumption|specialize (I x); lia].
  - rewrite (S x), pos_same. pose proof (debug_step (sv_raw (p i)) b i (N.of_nat (length l)) (q x) D) as (_ & X); [lia|specialize (I x); lia|].
    destruct (Z.ltb_spec 0 (q x)) as [L|L]; [|now apply fails_bind].
    rewrite X. cbn [obind]. apply (IH _ (set q x (q x - 1)%Z) p l); auto using set_place. apply set_in; [assumption|specialize (I x); lia].
  - rewrite (S x), pos_same. pose proof (debug_jump (sv_raw (p i)) b i (N.of_nat (length l)) (q x) off D) as X. cbn zeta in X.
    replace (Z.of_N (N.of_nat (length l))) with (Z.of_nat (length l)) in X by lia. specialize (X ltac:(lia)).
    destruct ((0 <=? q x + off)%Z && (q x + off <? Z.of_nat (length l))%Z) eqn:G; [|apply fails_bind; apply X].
    destruct X as (X & _). rewrite X. cbn [obind]. apply Bool.andb_true_iff in G. destruct G as (G1 & G2). apply Z.leb_le in G1. apply Z.ltb_lt in G2.
    apply (IH _ (set q x (q x + off)%Z) p l); auto using set_place. apply set_in; [assumption|lia].
  - rewrite (S x), (S y). replace (di_eq _ _) with (q x =? q y)%Z by reflexivity. now apply (IH _ r q p l).
  - rewrite (S x), (S y). destruct (relations b i (N.of_nat (length l)) (q x) (q y)) as (_ & A & _). rewrite A. cbn [obind]. now apply (IH _ r q p l).
  - rewrite (S x), (S y). destruct (relations b i (N.of_nat (length l)) (q x) (q y)) as (A & _). rewrite A. cbn [obind]. now apply (IH _ r q p l).
  - destruct (nth_error l (Z.to_nat (q x))) as [v|] eqn:N; [|discriminate]. destruct (holds_raw _ _ H) as (rest & R). rewrite (S x), pos_same.
    assert (A : di_deref (sv_raw (p i)) (at_pos i (N.of_nat (length l)) (q x)) = Ok v).
    { pose proof (deref_inside (sv_raw (p i)) l rest i (Z.to_nat (q x)) v R N) as X. rewrite Z2Nat.id in X by apply I. exact X. }
    rewrite A. cbn [obind]. now apply (IH _ r q p l).
  - destruct (nth_error l (Z.to_nat (q x))) as [y|] eqn:N; [|discriminate]. rewrite (S x). unfold write_it. cbn [at_pos di_ptr di_parent].
    rewrite (proj2 (Z.ltb_ge _ _)) by apply I. destruct (write_holds (p i) l (Z.to_nat (q x)) v y H N) as (v' & A & B).
    replace (Z.to_N (q x)) with (N.of_nat (Z.to_nat (q x))) by (specialize (I x); lia). rewrite A.
    apply (IH r q (upd p i v') (put_nth l (Z.to_nat (q x)) v)).
    + unfold upd. now rewrite N.eqb_refl.
    + rewrite len_put. exact S.
    + rewrite len_put. exact I.
    + exact E.
Qed.
Lemma leaves_fails (b : build) (a : algo V) (i : N) (p : N -> svec V) l : debug b -> holds (p i) l -> leaves a l = true ->
  assertion_fails b (on_vector b a i p).
Proof.
  intros D H E. apply (out_fails b i a D _ _ p l H) with (3 := E).
  - intros [|x]; unfold sv_begin, sv_end, di_begin_of, di_end_of, at_pos; pose proof (proj1 H) as L; unfold sv_size, lenN in L; rewrite L; [reflexivity|]. f_equal. lia.
  - intros [|x]; lia.
Qed.
End Algo.
