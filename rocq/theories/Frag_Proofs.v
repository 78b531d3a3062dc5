(** Positions in a fragment string and how the iterator operations move them. *)
From Coq Require Import List. Import ListNotations.
From Verif Require Import Base BaseFacts String_Model String_Spec String_Proofs Frag_Model Frag_Spec.

Lemma text_app a b : text (a ++ b) = text a ++ text b.
Proof. unfold text. now rewrite map_app, concat_app. Qed.
Lemma text_cons f fs : text (f :: fs) = chars f ++ text fs.
Proof. reflexivity. Qed.

Lemma length_of_acc fs : forall n, fold_left (fun n f => n + lenN (chars f)) fs n = n + lenN (text fs).
Proof.
  induction fs as [|f fs IH]; intros n; cbn [fold_left]; [unfold text; cbn [map concat]; rewrite lenN_nil; lia|].
  rewrite IH, text_cons, lenN_app. lia.
Qed.
Lemma length_of_text fs : length_of fs = lenN (text fs).
Proof. unfold length_of. rewrite length_of_acc. lia. Qed.

(** Number of characters before fragment [k]. *)
Definition before (fs : frags) (k : nat) : N := lenN (text (firstn k fs)).
Lemma before_0 fs : before fs 0 = 0. Proof. reflexivity. Qed.
Lemma nth_split (fs : frags) k : (k < length fs)%nat -> fs = firstn k fs ++ nth k fs None :: skipn (S k) fs.
Proof.
  revert k. induction fs as [|f fs IH]; intros k H; cbn [length] in H; [lia|]. destruct k as [|k]; [reflexivity|].
  cbn [firstn nth skipn app]. f_equal. apply IH. lia.
Qed.
Lemma before_S fs k : (k < length fs)%nat -> before fs (S k) = before fs k + flen fs k.
Proof.
  intros H. unfold before, flen, fchars. 
  replace (firstn (S k) fs) with (firstn k fs ++ [nth k fs None]).
  - rewrite text_app, lenN_app, text_cons, lenN_app. change (lenN (text [])) with 0. lia.
  - rewrite (nth_split fs k H) at 3. rewrite firstn_app. rewrite firstn_firstn, firstn_length.
    replace (Nat.min (S k) k) with k by lia. replace (S k - Nat.min k (length fs))%nat with 1%nat by lia. reflexivity.
Qed.
Lemma before_all fs : before fs (length fs) = lenN (text fs).
Proof. unfold before. now rewrite firstn_all. Qed.
Lemma before_le fs j k : (j <= k)%nat -> (k <= length fs)%nat -> before fs j <= before fs k.
Proof.
  intros H. induction H as [|k H IH]; intros L; [lia|]. rewrite before_S by lia. specialize (IH ltac:(lia)). lia.
Qed.
Lemma text_split fs k : (k < length fs)%nat -> text fs = text (firstn k fs) ++ fchars fs k ++ text (skipn (S k) fs).
Proof. intros H. rewrite (nth_split fs k H) at 1. now rewrite text_app, text_cons. Qed.
Lemma sublength_before fs lo hi : (lo <= hi)%nat -> (hi <= length fs)%nat -> sublength fs lo hi = before fs hi - before fs lo.
Proof.
  intros A B. unfold sublength, before. rewrite length_of_text.
  replace (firstn hi fs) with (firstn lo fs ++ firstn (hi - lo) (skipn lo fs)).
  - rewrite text_app, lenN_app. lia.
  - rewrite <- (firstn_skipn lo fs) at 3. rewrite firstn_app, firstn_firstn, firstn_length.
    replace (Nat.min hi lo) with lo by lia. now replace (hi - Nat.min lo (length fs))%nat with (hi - lo)%nat by lia.
Qed.

Lemma sane_nonempty fs k : sane fs -> (S k < length fs)%nat -> flen fs k <> 0.
Proof.
  intros [_ F] H E. unfold flen in E. apply lenN_0 in E. unfold fchars in E.
  assert (I : In (nth k fs None) (removelast fs)).
  { assert (G : forall fs : frags, (S k < length fs)%nat -> nth k fs None = nth k (removelast fs) None /\ (k < length (removelast fs))%nat).
    { clear. induction k as [|k IH]; intros [|f [|g r]] L; cbn [length] in L; try lia.
      - split; [reflexivity|]. change (removelast (f :: g :: r)) with (f :: removelast (g :: r)). cbn [length]. lia.
      - destruct (IH (g :: r)) as [A B]; [cbn [length]; lia|].
        change (removelast (f :: g :: r)) with (f :: removelast (g :: r)). cbn [nth length] in *. split; [exact A|lia]. }
    destruct (G fs H) as [-> L]. apply nth_In. assumption. }
  exact (proj1 (Forall_forall _ _) F _ I E).
Qed.
Lemma sane_length fs : sane fs -> (0 < length fs)%nat.
Proof. intros [H _]. destruct fs; [congruence|]. cbn [length]. lia. Qed.

(** The iterator stands at index [i] of the text: inside a fragment, or at the end. *)
Definition spot (fs : frags) (i : N) (it : iter) : Prop :=
  (it_frag it < length fs)%nat /\ i = before fs (it_frag it) + it_off it /\
  (it_off it < flen fs (it_frag it) \/ S (it_frag it) = length fs /\ it_off it = flen fs (it_frag it)).
(** The same, also at the end of any fragment. *)
Definition wspot (fs : frags) (i : N) (it : iter) : Prop :=
  (it_frag it < length fs)%nat /\ i = before fs (it_frag it) + it_off it /\ it_off it <= flen fs (it_frag it).
Lemma spot_wspot fs i it : spot fs i it -> wspot fs i it.
Proof. intros (A & B & C). repeat split; auto. lia. Qed.

Lemma wspot_le fs i it : wspot fs i it -> i <= lenN (text fs).
Proof.
  intros (A & -> & C). pose proof (before_le fs (S (it_frag it)) (length fs) ltac:(lia) ltac:(lia)) as L.
  rewrite before_S, before_all in L by lia. lia.
Qed.
Lemma spot_unique fs i a b : spot fs i a -> spot fs i b -> a = b.
Proof.
  destruct a as [k o], b as [k' o']. intros (A & B & C) (A' & B' & C'). cbn [it_frag it_off] in *.
  assert (k = k').
  { destruct (Nat.lt_trichotomy k k') as [L|[L|L]]; [|assumption|].
    - pose proof (before_le fs (S k) k' ltac:(lia) ltac:(lia)) as Q. rewrite before_S in Q by lia. lia.
    - pose proof (before_le fs (S k') k ltac:(lia) ltac:(lia)) as Q. rewrite before_S in Q by lia. lia. }
  subst k'. f_equal. lia.
Qed.
Lemma it_eq_iff a b : it_eq a b = true <-> a = b.
Proof.
  destruct a as [k o], b as [k' o']. unfold it_eq. cbn [it_frag it_off]. rewrite andb_true_iff, Nat.eqb_eq, N.eqb_eq.
  split; [intros [-> ->]; reflexivity|intros H; injection H; auto].
Qed.
Lemma spot_eq fs i j a b : spot fs i a -> spot fs j b -> it_eq a b = (i =? j).
Proof.
  intros A B. apply Bool.eq_iff_eq_true. rewrite it_eq_iff, N.eqb_eq. split.
  - intros ->. destruct A as (_ & -> & _), B as (_ & -> & _). reflexivity.
  - intros ->. eapply spot_unique; eauto.
Qed.
Lemma spot_cmp fs i j a b : spot fs i a -> spot fs j b -> it_cmp a b = (i ?= j).
Proof.
  destruct a as [k o], b as [k' o']. intros (A & B & C) (A' & B' & C'). unfold it_cmp. cbn [it_frag it_off] in *.
  destruct (Nat.compare_spec k k') as [L|L|L].
  - subst k'. destruct (N.compare_spec o o'); destruct (N.compare_spec i j); auto; lia.
  - pose proof (before_le fs (S k) k' ltac:(lia) ltac:(lia)) as Q. rewrite before_S in Q by lia.
    symmetry. apply N.compare_lt_iff. lia.
  - pose proof (before_le fs (S k') k ltac:(lia) ltac:(lia)) as Q. rewrite before_S in Q by lia.
    symmetry. apply N.compare_gt_iff. lia.
Qed.

Lemma spot_begin fs : sane fs -> spot fs 0 (begin_of fs).
Proof.
  intros S. pose proof (sane_length fs S) as L. repeat split; cbn [begin_of it_frag it_off]; [assumption|].
  destruct (Nat.eq_dec (length fs) 1) as [E|E].
  - destruct (N.eq_dec (flen fs 0) 0) as [Z|Z]; [right; rewrite E, Z; auto|left; lia].
  - left. pose proof (sane_nonempty fs 0 S ltac:(lia)). lia.
Qed.
Lemma wspot_begin fs : fs <> [] -> wspot fs 0 (begin_of fs).
Proof. intros H. repeat split; cbn [begin_of it_frag it_off]; [destruct fs; [congruence|cbn [length]; lia]|lia]. Qed.
Lemma spot_end fs : fs <> [] -> spot fs (lenN (text fs)) (end_of fs).
Proof.
  intros H. assert (L : (0 < length fs)%nat) by (destruct fs; [congruence|cbn [length]; lia]).
  repeat split; cbn [end_of it_frag it_off]; [lia| |right; split; [lia|reflexivity]].
  rewrite <- before_S by lia. replace (S (length fs - 1)) with (length fs) by lia. now rewrite before_all.
Qed.

Lemma dassert_true b : dassert b true = Ok tt.
Proof. now destruct b. Qed.

Lemma nth_chars fs k off : (k < length fs)%nat -> off < flen fs k ->
  nth_error (text fs) (N.to_nat (before fs k + off)) = nth_error (fchars fs k) (N.to_nat off).
Proof.
  intros H L. unfold before, flen, lenN in *. rewrite (text_split fs k H).
  rewrite nth_error_app2 by lia. rewrite nth_error_app1 by lia. f_equal. lia.
Qed.

Lemma spot_deref b fs i it c : spot fs i it -> nth_error (text fs) (N.to_nat i) = Some c -> it_deref b fs it = Ok c.
Proof.
  intros (A & B & C) E.
  assert (L : it_off it < flen fs (it_frag it)).
  { destruct C as [C|[C1 C2]]; [assumption|]. exfalso.
    assert (X : (N.to_nat i < length (text fs))%nat) by (apply nth_error_Some; congruence).
    pose proof (before_S fs (it_frag it) A) as Q. rewrite C1, before_all in Q. unfold lenN in Q. lia. }
  unfold it_deref. rewrite (proj2 (Nat.ltb_lt _ _) A), (proj2 (N.ltb_lt _ _) L). cbn [andb]. rewrite dassert_true. cbn [obind].
  rewrite B in E. rewrite nth_chars in E by assumption. now rewrite E.
Qed.
Lemma spot_inside fs i it : spot fs i it -> i < lenN (text fs) -> it_off it < flen fs (it_frag it).
Proof.
  intros (A & B & C) L. destruct C as [C|[C1 C2]]; [assumption|].
  pose proof (before_S fs (it_frag it) A) as Q. rewrite C1, before_all in Q. lia.
Qed.

Lemma spot_inc b fs i it : sane fs -> spot fs i it -> i < lenN (text fs) ->
  exists it', it_inc b fs it = Ok it' /\ spot fs (i + 1) it'.
Proof.
  intros S P L. pose proof (spot_inside fs i it P L) as I. destruct P as (A & B & _). unfold it_inc.
  set (k := it_frag it) in *. rewrite (proj2 (N.eqb_neq (it_off it) (flen fs k))) by lia. rewrite andb_false_r. cbn [negb].
  rewrite dassert_true. cbn [obind]. rewrite (proj2 (N.leb_gt _ _)) by lia.
  destruct (N.eqb_spec (it_off it + 1) (flen fs k)) as [E|E].
  - destruct (Nat.eqb_spec (Datatypes.S k) (length fs)) as [X|X].
    + eexists; split; [reflexivity|]. repeat split; cbn [it_frag it_off]; [assumption|lia|auto].
    + eexists; split; [reflexivity|]. repeat split; cbn [it_frag it_off]; [lia|rewrite before_S by assumption; lia|].
      destruct (Nat.eq_dec (Datatypes.S (Datatypes.S k)) (length fs)) as [Y|Y].
      * destruct (N.eq_dec (flen fs (Datatypes.S k)) 0); [right; auto|left; lia].
      * left. pose proof (sane_nonempty fs (Datatypes.S k) S ltac:(lia)). lia.
  - eexists; split; [reflexivity|]. repeat split; cbn [it_frag it_off]; lia.
Qed.

Lemma spot_dec b fs i it : sane fs -> spot fs (i + 1) it ->
  exists it', it_dec b fs it = Ok it' /\ spot fs i it'.
Proof.
  intros S (A & B & C). unfold it_dec.
  assert (NB : negb (Nat.eqb (it_frag it) 0 && (it_off it =? 0)) = true).
  { destruct (Nat.eqb_spec (it_frag it) 0) as [E|E]; [|reflexivity]. rewrite E, before_0 in B.
    now rewrite (proj2 (N.eqb_neq _ _)) by lia. }
  rewrite NB, dassert_true. cbn [obind]. destruct (N.eqb_spec (it_off it) 0) as [E|E].
  - destruct (it_frag it) as [|k] eqn:K; [rewrite before_0 in B; lia|].
    pose proof (sane_nonempty fs k S ltac:(lia)) as Q. rewrite (proj2 (N.eqb_neq _ _)) by assumption.
    eexists; split; [reflexivity|]. rewrite before_S in B by lia. repeat split; cbn [it_frag it_off]; lia.
  - eexists; split; [reflexivity|]. repeat split; cbn [it_frag it_off]; lia.
Qed.

Lemma seek_forward_ok b fs fuel : forall i it n, sane fs -> spot fs i it -> i + n <= lenN (text fs) ->
  (length fs - it_frag it < fuel)%nat -> exists it', seek_forward fuel b fs it n = Ok it' /\ spot fs (i + n) it'.
Proof.
  induction fuel as [|fuel IH]; intros i it n S P L F; [lia|]. cbn [seek_forward].
  destruct (N.eqb_spec n 0) as [->|NZ]; [exists it; rewrite N.add_0_r; auto|].
  pose proof (spot_inside fs i it P ltac:(lia)) as I. destruct P as (A & B & _). set (k := it_frag it) in *.
  destruct (N.ltb_spec n (flen fs k - it_off it)) as [Q|Q].
  - eexists; split; [reflexivity|]. repeat split; cbn [it_frag it_off]; lia.
  - assert (D : negb (Nat.eqb (Datatypes.S k) (length fs)) || (n =? flen fs k - it_off it) = true).
    { destruct (Nat.eqb_spec (Datatypes.S k) (length fs)) as [E|E]; [|reflexivity]. cbn [negb orb].
      apply N.eqb_eq. pose proof (before_S fs k A) as X. rewrite E, before_all in X. lia. }
    rewrite D, dassert_true. cbn [obind].
    destruct (Nat.eqb_spec (Datatypes.S k) (length fs)) as [E|E].
    + cbn [negb orb] in D. apply N.eqb_eq in D. rewrite <- D, N.sub_diag.
      destruct fuel as [|fuel]; [lia|]. cbn [seek_forward]. rewrite N.eqb_refl. eexists; split; [reflexivity|].
      repeat split; cbn [it_frag it_off]; auto. lia.
    + destruct (IH (before fs (Datatypes.S k)) (It (Datatypes.S k) 0) (n - (flen fs k - it_off it))) as (it' & R & T); auto.
      * repeat split; cbn [it_frag it_off]; [lia|lia|].
        destruct (Nat.eq_dec (Datatypes.S (Datatypes.S k)) (length fs)) as [Y|Y].
        -- destruct (N.eq_dec (flen fs (Datatypes.S k)) 0); [right; auto|left; lia].
        -- left. pose proof (sane_nonempty fs (Datatypes.S k) S ltac:(lia)). lia.
      * rewrite before_S by assumption. lia.
      * cbn [it_frag]. lia.
      * exists it'. split; [assumption|]. rewrite before_S in T by assumption. replace (i + n) with (before fs k + flen fs k + (n - (flen fs k - it_off it))) by lia. assumption.
Qed.

(** Seeking past the end: the loop never ends in a release build. *)
Lemma seek_forward_past fs fuel : forall i it n, wspot fs i it -> lenN (text fs) < i + n ->
  seek_forward fuel Release fs it n = Diverge.
Proof.
  induction fuel as [|fuel IH]; intros i it n (A & B & C) L; [reflexivity|]. cbn [seek_forward dassert obind].
  set (k := it_frag it) in *. pose proof (before_S fs k A) as X.
  pose proof (before_le fs (S k) (length fs) ltac:(lia) ltac:(lia)) as Y. rewrite before_all in Y.
  rewrite (proj2 (N.eqb_neq n 0)) by lia. rewrite (proj2 (N.ltb_ge _ _)) by lia.
  destruct (Nat.eqb_spec (S k) (length fs)) as [E|E].
  - apply (IH (before fs k + flen fs k)); [repeat split; cbn [it_frag it_off]; auto; lia|]. lia.
  - apply (IH (before fs (S k))); [repeat split; cbn [it_frag it_off]; lia|]. rewrite X. lia.
Qed.
Lemma seek_forward_past_debug b fs fuel : forall i it n, b <> Release -> wspot fs i it -> lenN (text fs) < i + n ->
  (length fs - it_frag it < fuel)%nat -> seek_forward fuel b fs it n = match b with DebugThrow => Throw logic_error | _ => Terminate end.
Proof.
  induction fuel as [|fuel IH]; intros i it n NR (A & B & C) L F; [lia|]. cbn [seek_forward].
  set (k := it_frag it) in *. pose proof (before_S fs k A) as X.
  pose proof (before_le fs (S k) (length fs) ltac:(lia) ltac:(lia)) as Y. rewrite before_all in Y.
  rewrite (proj2 (N.eqb_neq n 0)) by lia. rewrite (proj2 (N.ltb_ge _ _)) by lia.
  destruct (Nat.eqb_spec (S k) (length fs)) as [E|E].
  - cbn [negb orb]. rewrite E, before_all in X. rewrite (proj2 (N.eqb_neq _ _)) by lia. destruct b; [congruence|reflexivity|reflexivity].
  - cbn [negb orb]. rewrite dassert_true. cbn [obind]. 
    apply (IH (before fs (S k))); auto; [repeat split; cbn [it_frag it_off]; lia|rewrite X; lia|cbn [it_frag]; lia].
Qed.

Lemma seek_backward_ok b fs fuel : forall i it n, wspot fs i it -> 0 < n <= i -> (it_frag it < fuel)%nat ->
  exists it', seek_backward fuel b fs it n = Ok it' /\ spot fs (i - n) it'.
Proof.
  induction fuel as [|fuel IH]; intros i it n (A & B & C) L F; [lia|]. cbn [seek_backward].
  rewrite (proj2 (N.eqb_neq n 0)) by lia. destruct (N.leb_spec n (it_off it)) as [Q|Q].
  - eexists; split; [reflexivity|]. repeat split; cbn [it_frag it_off]; lia.
  - destruct (it_frag it) as [|k] eqn:K; [rewrite before_0 in B; lia|]. cbn [Nat.eqb negb]. rewrite dassert_true. cbn [obind].
    rewrite before_S in B by lia.
    destruct (IH (before fs k + flen fs k) (It k (flen fs k)) (n - it_off it)) as (it' & R & T).
    + repeat split; cbn [it_frag it_off]; lia.
    + lia.
    + cbn [it_frag]. lia.
    + exists it'. split; [assumption|]. replace (i - n) with (before fs k + flen fs k - (n - it_off it)) by lia. assumption.
Qed.

Lemma seek_ok b fs i it z : sane fs -> spot fs i it -> (0 <= Z.of_N i + z <= Z.of_N (lenN (text fs)))%Z ->
  lenN (text fs) < 2 ^ 63 -> exists it', seek b fs it z = Ok it' /\ spot fs (Z.to_N (Z.of_N i + z)) it'.
Proof.
  intros S P L F. change (2 ^ 63) with 9223372036854775808 in F. unfold seek. pose proof P as (A & _). pose proof (wspot_le _ _ _ (spot_wspot _ _ _ P)).
  destruct (Z.ltb_spec 0 z).
  - destruct (seek_forward_ok b fs (length fs + 2) i it (Z.to_N z)) as (it' & R & T); auto; [lia|lia|].
    exists it'. split; [assumption|]. replace (Z.to_N (Z.of_N i + z)) with (i + Z.to_N z) by lia. assumption.
  - change (- 2 ^ 63)%Z with (-9223372036854775808)%Z. destruct (Z.eqb_spec z (-9223372036854775808)); [lia|].
    destruct (Z.eq_dec z 0) as [->|NZ].
    + exists it. rewrite Nat.add_comm. cbn [Nat.add seek_backward Z.opp Z.to_N N.eqb]. split; [reflexivity|]. rewrite Z.add_0_r, N2Z.id. assumption.
    + destruct (seek_backward_ok b fs (length fs + 2) i it (Z.to_N (- z))) as (it' & R & T); [now apply spot_wspot|lia|lia|].
      exists it'. split; [assumption|]. replace (Z.to_N (Z.of_N i + z)) with (i - Z.to_N (- z)) by lia. assumption.
Qed.
Lemma next_ok b fs i it n : sane fs -> spot fs i it -> i + n <= lenN (text fs) -> lenN (text fs) < 2 ^ 63 ->
  exists it', next b fs it n = Ok it' /\ spot fs (i + n) it'.
Proof.
  intros S P L F. unfold next, as_ptrdiff. pose proof F as F'. change (2 ^ 63) with 9223372036854775808 in F'.
  rewrite (proj2 (N.ltb_lt n (2 ^ 63))) by (change (2 ^ 63) with 9223372036854775808; lia).
  destruct (seek_ok b fs i it (Z.of_N n) S P ltac:(lia) F) as (it' & R & T). exists it'. split; [assumption|].
  replace (i + n) with (Z.to_N (Z.of_N i + Z.of_N n)) by lia. assumption.
Qed.

Lemma diff_ok fs i j a b : wspot fs i a -> wspot fs j b -> it_diff fs a b = (Z.of_N i - Z.of_N j)%Z.
Proof.
  intros (A & B & C) (A' & B' & C'). unfold it_diff, distance.
  destruct (Nat.ltb_spec (it_frag b) (it_frag a)).
  - rewrite sublength_before by lia. pose proof (before_le fs (it_frag b) (it_frag a) ltac:(lia) ltac:(lia)). lia.
  - destruct (Nat.ltb_spec (it_frag a) (it_frag b)).
    + rewrite sublength_before by lia. pose proof (before_le fs (it_frag a) (it_frag b) ltac:(lia) ltac:(lia)). lia.
    + replace (it_frag b) with (it_frag a) in * by lia. lia.
Qed.

(** * Loops *)
Lemma nth_error_dropN (s : list N) i : nth_error s (N.to_nat i) = match dropN i s with [] => None | c :: _ => Some c end.
Proof.
  unfold dropN. generalize (N.to_nat i). clear i. intros i. revert s. induction i as [|i IH]; intros [|c s]; try reflexivity. apply IH.
Qed.
Lemma dropN_cons (s : list N) i c : nth_error s (N.to_nat i) = Some c -> dropN i s = c :: dropN (i + 1) s.
Proof.
  intros H. rewrite nth_error_dropN in H. destruct (dropN i s) as [|x r] eqn:E; [discriminate|]. injection H as ->.
  f_equal. replace (i + 1) with (1 + i) by lia. rewrite <- dropN_dropN, E. reflexivity.
Qed.
Lemma nth_lt (s : list N) i : i < lenN s -> exists c, nth_error s (N.to_nat i) = Some c.
Proof.
  intros H. destruct (nth_error s (N.to_nat i)) eqn:E; [eauto|]. apply nth_error_None in E. unfold lenN in H. lia.
Qed.
Lemma slice_cons s i n c : nth_error s (N.to_nat i) = Some c -> slice s i (1 + n) = c :: slice s (i + 1) n.
Proof.
  intros H. unfold slice. rewrite (dropN_cons s i c H). unfold takeN. replace (N.to_nat (1 + n)) with (S (N.to_nat n)) by lia. reflexivity.
Qed.
Lemma slice_0 s i : slice s i 0 = []. Proof. apply takeN_0. Qed.

Lemma collect_ok b fs fuel : forall i it n last, sane fs -> spot fs i it -> spot fs (i + n) last ->
  (N.to_nat n < fuel)%nat -> collect fuel b fs it last = Ok (slice (text fs) i n).
Proof.
  induction fuel as [|fuel IH]; intros i it n last S P Q F; [lia|]. cbn [collect].
  rewrite (spot_eq fs i (i + n) it last P Q). destruct (N.eqb_spec i (i + n)) as [E|E].
  - replace n with 0 by lia. now rewrite slice_0.
  - pose proof (wspot_le _ _ _ (spot_wspot _ _ _ Q)) as L. destruct (nth_lt (text fs) i ltac:(lia)) as [c Hc].
    rewrite (spot_deref b fs i it c P Hc). cbn [obind].
    destruct (spot_inc b fs i it S P ltac:(lia)) as (it' & -> & P'). cbn [obind].
    rewrite (IH (i + 1) it' (n - 1) last); auto.
    + cbn [obind]. f_equal. replace n with (1 + (n - 1)) at 2 by lia. now rewrite (slice_cons _ _ _ c Hc).
    + replace (i + 1 + (n - 1)) with (i + n) by lia. assumption.
    + lia.
Qed.
Lemma slice_all s : slice s 0 (lenN s) = s.
Proof. unfold slice. rewrite dropN_0. apply takeN_all. lia. Qed.

Lemma walk_ok b fs : sane fs -> walk b fs = Ok (text fs).
Proof.
  intros S. unfold walk. rewrite length_of_text.
  rewrite (collect_ok b fs _ 0 (begin_of fs) (lenN (text fs)) (end_of fs)); auto.
  - now rewrite slice_all.
  - now apply spot_begin.
  - rewrite N.add_0_l. apply spot_end. apply S.
Qed.

Lemma takeN_snoc (s : list N) i c : nth_error s (N.to_nat i) = Some c -> takeN (i + 1) s = takeN i s ++ [c].
Proof.
  intros H. rewrite takeN_plus. f_equal. rewrite (dropN_cons s i c H). reflexivity.
Qed.
Lemma rcollect_ok b fs fuel : forall i it, sane fs -> spot fs i it -> (N.to_nat i < fuel)%nat ->
  rcollect fuel b fs it (begin_of fs) = Ok (rev (takeN i (text fs))).
Proof.
  induction fuel as [|fuel IH]; intros i it S P F; [lia|]. cbn [rcollect].
  rewrite (spot_eq fs i 0 it _ P (spot_begin fs S)). destruct (N.eqb_spec i 0) as [->|E].
  - now rewrite takeN_0.
  - pose proof (wspot_le _ _ _ (spot_wspot _ _ _ P)) as L. replace i with (i - 1 + 1) in P by lia.
    destruct (spot_dec b fs (i - 1) it S P) as (it' & -> & P'). cbn [obind].
    destruct (nth_lt (text fs) (i - 1) ltac:(lia)) as [c Hc]. rewrite (spot_deref b fs (i - 1) it' c P' Hc). cbn [obind].
    rewrite (IH (i - 1)); auto; [|lia]. cbn [obind]. f_equal. replace i with (i - 1 + 1) at 2 by lia.
    rewrite (takeN_snoc _ _ c Hc), rev_app_distr. reflexivity.
Qed.
Lemma rwalk_ok b fs : sane fs -> rwalk b fs = Ok (rev (text fs)).
Proof.
  intros S. unfold rwalk. rewrite length_of_text. rewrite (rcollect_ok b fs _ (lenN (text fs))); auto.
  - now rewrite takeN_all by lia.
  - apply spot_end. apply S.
Qed.
