(** Positions of fragment strings that may have empty fragments. *)
From Coq Require Import List. Import ListNotations.
From Verif Require Import Base BaseFacts String_Model String_Spec String_Proofs Frag_Model Frag_Spec Frag_Proofs FragOps_Proofs FragGap_Spec.

(** The first of the iterators that stand at index [i]: where begin() + i ends up. *)
Definition fspot (fs : frags) (i : N) (it : iter) : Prop :=
  wspot fs i it /\ (it_off it < flen fs (it_frag it) \/ S (it_frag it) = length fs \/ it_off it = 0) /\
  forall j, (j < it_frag it)%nat -> before fs j < i.

Lemma fspot_begin fs : fs <> [] -> fspot fs 0 (begin_of fs).
Proof. intros H. split; [now apply wspot_begin|]. split; [now right; right|]. cbn [begin_of it_frag]. intros j Hj. lia. Qed.

Lemma fspot_unique fs i a b : fspot fs i a -> fspot fs i b -> a = b.
Proof.
  destruct a as [k o], b as [k' o']. intros ((A & B & C) & D & E) ((A' & B' & C') & D' & E'). cbn [it_frag it_off] in *.
  assert (K : k = k').
  { destruct (Nat.lt_trichotomy k k') as [L|[L|L]]; [|assumption|].
    - pose proof (before_le fs (S k) k' ltac:(lia) ltac:(lia)) as Q. rewrite before_S in Q by lia. specialize (E' k L). lia.
    - pose proof (before_le fs (S k') k ltac:(lia) ltac:(lia)) as Q. rewrite before_S in Q by lia. specialize (E k' L). lia. }
  subst k'. f_equal. lia.
Qed.
Lemma wspot_inj fs i j it : wspot fs i it -> wspot fs j it -> i = j.
Proof. intros (_ & -> & _) (_ & -> & _). reflexivity. Qed.
Lemma fspot_eq fs i j a b : fspot fs i a -> fspot fs j b -> it_eq a b = (i =? j).
Proof.
  intros A B. apply Bool.eq_iff_eq_true. rewrite it_eq_iff, N.eqb_eq. split.
  - intros ->. exact (wspot_inj fs i j b (proj1 A) (proj1 B)).
  - intros ->. eapply fspot_unique; eauto.
Qed.

Lemma seek_fspot b fs fuel : forall i it n, wspot fs i it -> 0 < n -> i + n <= lenN (text fs) ->
  (length fs - it_frag it < fuel)%nat -> exists it', seek_forward fuel b fs it n = Ok it' /\ fspot fs (i + n) it'.
Proof.
  induction fuel as [|fuel IH]; intros i it n P NZ L F; [lia|]. cbn [seek_forward].
  rewrite (proj2 (N.eqb_neq n 0)) by lia. destruct P as (A & B & C). set (k := it_frag it) in *.
  assert (BL : forall j, (j < k)%nat -> before fs j <= before fs k) by (intros j Hj; apply before_le; lia).
  pose proof (before_S fs k A) as X.
  destruct (N.ltb_spec n (flen fs k - it_off it)) as [Q|Q].
  - eexists; split; [reflexivity|]. split; [repeat split; cbn [it_frag it_off]; lia|]. cbn [it_frag it_off].
    split; [left; lia|]. intros j Hj. specialize (BL j Hj). lia.
  - assert (D : negb (Nat.eqb (S k) (length fs)) || (n =? flen fs k - it_off it) = true).
    { destruct (Nat.eqb_spec (S k) (length fs)) as [E|E]; [|reflexivity]. cbn [negb orb].
      apply N.eqb_eq. rewrite E, before_all in X. lia. }
    rewrite D, dassert_true. cbn [obind].
    destruct (Nat.eqb_spec (S k) (length fs)) as [E|E].
    + cbn [negb orb] in D. apply N.eqb_eq in D. rewrite <- D, N.sub_diag.
      destruct fuel as [|fuel]; [lia|]. cbn [seek_forward]. rewrite N.eqb_refl. eexists; split; [reflexivity|].
      split; [repeat split; cbn [it_frag it_off]; lia|]. cbn [it_frag it_off]. split; [auto|].
      intros j Hj. specialize (BL j Hj). lia.
    + destruct (N.eq_dec (n - (flen fs k - it_off it)) 0) as [Z|Z].
      * rewrite Z. destruct fuel as [|fuel]; [lia|]. cbn [seek_forward]. rewrite N.eqb_refl. eexists; split; [reflexivity|].
        split; [repeat split; cbn [it_frag it_off]; lia|]. cbn [it_frag it_off]. split; [auto|].
        intros j Hj. assert (before fs j <= before fs k) by (apply before_le; lia). lia.
      * destruct (IH (before fs (S k)) (It (S k) 0) (n - (flen fs k - it_off it))) as (it' & R & T).
        -- repeat split; cbn [it_frag it_off]; lia.
        -- lia.
        -- lia.
        -- cbn [it_frag]. lia.
        -- exists it'. split; [assumption|]. replace (i + n) with (before fs (S k) + (n - (flen fs k - it_off it))) by lia. assumption.
Qed.

Lemma next_begin b fs n : fs <> [] -> fits fs -> n <= lenN (text fs) ->
  exists it, next b fs (begin_of fs) n = Ok it /\ fspot fs n it.
Proof.
  intros NE F L. unfold fits in F. change (2 ^ 63) with 9223372036854775808 in F. unfold next, as_ptrdiff.
  change (2 ^ 63) with 9223372036854775808. rewrite (proj2 (N.ltb_lt n _)) by lia. unfold seek.
  destruct (N.eq_dec n 0) as [->|NZ].
  - change (Z.of_N 0) with 0%Z. rewrite Nat.add_comm. cbn [Z.ltb Z.compare Z.opp Z.to_N Nat.add seek_backward N.eqb].
    exists (begin_of fs). split; [reflexivity|now apply fspot_begin].
  - rewrite (proj2 (Z.ltb_lt _ _)) by lia. rewrite N2Z.id.
    destruct (seek_fspot b fs (length fs + 2) 0 (begin_of fs) n (wspot_begin fs NE) ltac:(lia) ltac:(lia) ltac:(lia)) as (it & R & T).
    exists it. split; [exact R|]. now rewrite N.add_0_l in T.
Qed.

Lemma fspot_gap fs i it : fspot fs i it -> gap_at fs i ->
  it_off it = 0 /\ flen fs (it_frag it) = 0 /\ (S (it_frag it) < length fs)%nat.
Proof.
  destruct it as [k' o]. intros ((A & B & C) & D & E) (k & K & Z & S0). cbn [it_frag it_off] in *.
  fold (before fs k) in S0. assert (FK : flen fs k = 0) by (unfold flen, fchars; now rewrite Z).
  assert (LE : (k' <= k)%nat). { destruct (Nat.le_gt_cases k' k); [assumption|]. specialize (E k H). lia. }
  destruct (Nat.eq_dec k' k) as [->|NE]; [repeat split; lia|].
  pose proof (before_le fs (S k') k ltac:(lia) ltac:(lia)) as Q. rewrite before_S in Q by lia. repeat split; lia.
Qed.
Lemma fspot_inside fs i it : fspot fs i it -> i < lenN (text fs) -> ~ gap_at fs i -> it_off it < flen fs (it_frag it).
Proof.
  destruct it as [k o]. intros ((A & B & C) & D & E) L G. cbn [it_frag it_off] in *.
  pose proof (before_S fs k A) as X. pose proof (before_le fs (S k) (length fs) ltac:(lia) ltac:(lia)) as Y. rewrite before_all in Y.
  destruct D as [D|[D|D]]; [assumption| |].
  - rewrite D, before_all in X. lia.
  - destruct (N.eq_dec (flen fs k) 0) as [Z|Z]; [|lia]. exfalso. apply G. exists k. 
    assert (NL : (S k < length fs)%nat).
    { destruct (Nat.eq_dec (S k) (length fs)) as [W|W]; [|lia]. rewrite W, before_all in X. lia. }
    split; [assumption|]. split; [apply lenN_0; exact Z|]. fold (before fs k). lia.
Qed.
Lemma fspot_deref_gap {A} b fs i it (f : N -> outcome A) : fspot fs i it -> gap_at fs i -> obind (it_deref b fs it) f = misuse b.
Proof.
  intros P G. destruct (fspot_gap fs i it P G) as (O & Z & L). unfold it_deref. rewrite O, Z.
  rewrite (proj2 (Nat.ltb_lt _ _)) by lia. cbn [andb N.ltb N.compare]. destruct b; [|reflexivity|reflexivity].
  cbn [dassert obind]. unfold flen in Z. apply lenN_0 in Z. rewrite Z. reflexivity.
Qed.
Lemma fspot_deref b fs i it : fspot fs i it -> i < lenN (text fs) -> ~ gap_at fs i ->
  exists c, nth_error (text fs) (N.to_nat i) = Some c /\ it_deref b fs it = Ok c.
Proof.
  intros P L G. pose proof (fspot_inside fs i it P L G) as I. destruct (nth_lt _ _ L) as [c Hc]. exists c. split; [assumption|].
  destruct P as ((A & B & _) & _). unfold it_deref. rewrite (proj2 (Nat.ltb_lt _ _) A), (proj2 (N.ltb_lt _ _) I). cbn [andb].
  rewrite dassert_true. cbn [obind]. rewrite B in Hc. rewrite nth_chars in Hc by assumption. now rewrite Hc.
Qed.
Lemma fspot_inc b fs i it : fspot fs i it -> i < lenN (text fs) -> ~ gap_at fs i ->
  exists it', it_inc b fs it = Ok it' /\ fspot fs (i + 1) it'.
Proof.
  intros P L G. pose proof (fspot_inside fs i it P L G) as I. destruct P as ((A & B & C) & D & E). unfold it_inc.
  set (k := it_frag it) in *. rewrite (proj2 (N.eqb_neq (it_off it) (flen fs k))) by lia. rewrite andb_false_r. cbn [negb].
  rewrite dassert_true. cbn [obind]. rewrite (proj2 (N.leb_gt _ _)) by lia.
  assert (BL : forall j, (j <= k)%nat -> before fs j <= before fs k) by (intros j Hj; apply before_le; lia).
  pose proof (before_S fs k A) as X.
  destruct (N.eqb_spec (it_off it + 1) (flen fs k)) as [Q|Q].
  - destruct (Nat.eqb_spec (S k) (length fs)) as [Y|Y]; (eexists; split; [reflexivity|]).
    + split; [repeat split; cbn [it_frag it_off]; lia|]. cbn [it_frag it_off]. split; [auto|]. intros j Hj. specialize (BL j ltac:(lia)). lia.
    + split; [repeat split; cbn [it_frag it_off]; lia|]. cbn [it_frag it_off]. split; [auto|]. intros j Hj. specialize (BL j ltac:(lia)). lia.
  - eexists; split; [reflexivity|]. split; [repeat split; cbn [it_frag it_off]; lia|]. cbn [it_frag it_off]. split; [left; lia|].
    intros j Hj. specialize (BL j ltac:(lia)). lia.
Qed.
Lemma gap_dec fs i it : fspot fs i it -> i < lenN (text fs) -> gap_at fs i \/ ~ gap_at fs i.
Proof.
  intros P L. destruct (N.eq_dec (flen fs (it_frag it)) 0) as [Z|Z].
  - left. pose proof P as ((A & B & C) & _). exists (it_frag it). pose proof (before_S fs (it_frag it) A) as X.
    assert (NL : (S (it_frag it) < length fs)%nat).
    { destruct (Nat.eq_dec (S (it_frag it)) (length fs)) as [W|W]; [|lia]. rewrite W, before_all in X. lia. }
    split; [assumption|]. split; [apply lenN_0; exact Z|]. fold (before fs (it_frag it)). lia.
  - right. intros G. destruct (fspot_gap fs i it P G) as (_ & Y & _). contradiction.
Qed.
Lemma fspot_end fs : fs <> [] -> ~ gap_at fs (lenN (text fs)) -> fspot fs (lenN (text fs)) (end_of fs).
Proof.
  intros NE G. pose proof (spot_end fs NE) as P. pose proof (spot_wspot _ _ _ P) as W. split; [assumption|].
  pose proof W as (A & B & C). cbn [end_of it_frag it_off] in *. split; [right; left; lia|]. intros j Hj.
  assert (before fs (S j) <= lenN (text fs)) by (rewrite <- before_all; apply before_le; lia). rewrite before_S in H by lia.
  destruct (N.eq_dec (before fs j) (lenN (text fs))) as [Q|Q]; [|lia]. exfalso. apply G. exists j. split; [lia|]. split; [|exact Q].
  apply lenN_0. change (flen fs j = 0). lia.
Qed.

(** * Loops *)
Lemma collect_fspot b fs fuel : forall i it n last, fspot fs i it -> fspot fs (i + n) last ->
  (forall g, i <= g < i + n -> ~ gap_at fs g) -> (N.to_nat n < fuel)%nat -> collect fuel b fs it last = Ok (slice (text fs) i n).
Proof.
  induction fuel as [|fuel IH]; intros i it n last P Q G F; [lia|]. cbn [collect].
  rewrite (fspot_eq fs i (i + n) it last P Q). destruct (N.eqb_spec i (i + n)) as [E|E].
  - replace n with 0 by lia. now rewrite slice_0.
  - pose proof (wspot_le _ _ _ (proj1 Q)) as L. pose proof (G i ltac:(lia)) as Gi.
    destruct (fspot_deref b fs i it P ltac:(lia) Gi) as (c & Hc & ->). cbn [obind].
    destruct (fspot_inc b fs i it P ltac:(lia) Gi) as (it' & -> & P'). cbn [obind].
    rewrite (IH (i + 1) it' (n - 1) last); auto.
    + cbn [obind]. f_equal. replace n with (1 + (n - 1)) at 2 by lia. now rewrite (slice_cons _ _ _ c Hc).
    + replace (i + 1 + (n - 1)) with (i + n) by lia. assumption.
    + intros g Hg. apply G. lia.
    + lia.
Qed.
Lemma collect_gap b fs fuel : forall i it g last, fspot fs i it -> gap_at fs g -> i <= g ->
  (forall j x, i <= j <= g -> fspot fs j x -> it_eq x last = false) -> (N.to_nat (g - i) < fuel)%nat ->
  collect fuel b fs it last = misuse b.
Proof.
  induction fuel as [|fuel IH]; intros i it g last P G L Q F; [lia|]. cbn [collect]. rewrite (Q i it ltac:(lia) P).
  destruct (N.eq_dec i g) as [->|NE]; [now apply (fspot_deref_gap b fs g)|].
  assert (LT : g <= lenN (text fs)).
  { destruct G as (k & K & _ & <-). fold (before fs k). rewrite <- before_all. apply before_le; lia. }
  destruct (gap_dec fs i it P ltac:(lia)) as [Gi|Gi]; [now apply (fspot_deref_gap b fs i)|].
  destruct (fspot_deref b fs i it P ltac:(lia) Gi) as (c & Hc & ->). cbn [obind].
  destruct (fspot_inc b fs i it P ltac:(lia) Gi) as (it' & -> & P'). cbn [obind].
  rewrite (IH (i + 1) it' g last); [destruct b; reflexivity|assumption|assumption|lia| |lia].
  intros j x Hj. apply Q. lia.
Qed.

(** * Indexed access *)
Lemma begin_plus_any b fs i : fits fs -> i < lenN (text fs) ->
  exists it, next b fs (begin_of fs) i = Ok it /\
    (gap_at fs i -> it_deref b fs it = misuse b) /\
    (~ gap_at fs i -> exists c, nth_error (text fs) (N.to_nat i) = Some c /\ it_deref b fs it = Ok c).
Proof.
  intros F L. assert (NE : fs <> []) by (intros ->; cbn in L; lia).
  destruct (next_begin b fs i NE F ltac:(lia)) as (it & E & P). exists it. split; [assumption|]. split; intros G.
  - pose proof (fspot_deref_gap b fs i it Ok P G) as D. destruct (it_deref b fs it); exact D.
  - now apply (fspot_deref b fs i it).
Qed.
Lemma at_any b fs i : fits fs -> i < lenN (text fs) ->
  (gap_at fs i -> at_pos b fs i = match b with Release => UB | _ => Terminate end /\ subscript b fs i = at_pos b fs i) /\
  (~ gap_at fs i -> exists c, nth_error (text fs) (N.to_nat i) = Some c /\ at_pos b fs i = Ok c /\ subscript b fs i = Ok c).
Proof.
  intros F L. destruct (begin_plus_any b fs i F L) as (it & E & G & H). unfold at_pos. rewrite length_of_text.
  rewrite (proj2 (N.leb_gt _ _)) by assumption. unfold subscript. rewrite E. cbn [obind]. split; intros X.
  - rewrite (G X). split; [destruct b; reflexivity|reflexivity].
  - destruct (H X) as (c & A & ->). exists c. auto.
Qed.
Lemma front_any b fs : text fs <> [] ->
  (gap_at fs 0 -> front b fs = UB) /\ (~ gap_at fs 0 -> exists c s, text fs = c :: s /\ front b fs = Ok c).
Proof.
  intros T. assert (NE : fs <> []) by (intros ->; now apply T). 
  assert (L : 0 < lenN (text fs)) by (destruct (text fs); [congruence|unfold lenN; cbn [length]; lia]).
  pose proof (fspot_begin fs NE) as P. unfold front. rewrite length_of_text, (proj2 (N.ltb_lt _ _) L), dassert_true. cbn [obind].
  split; intros G.
  - destruct (fspot_gap fs 0 _ P G) as (_ & Z & _). cbn [begin_of it_frag] in Z. unfold flen in Z. apply lenN_0 in Z. now rewrite Z.
  - pose proof (fspot_inside fs 0 _ P L G) as I. cbn [begin_of it_frag it_off] in I.
    destruct fs as [|f r]; [congruence|]. unfold flen, fchars in I. cbn [nth] in I. unfold fchars. cbn [nth]. rewrite text_cons.
    destruct (chars f) as [|c t]; [cbn in I; lia|]. exists c, (t ++ text r). auto.
Qed.
Lemma text_snoc a f : text (a ++ [f]) = text a ++ chars f.
Proof. rewrite text_app, text_cons. change (text []) with (@nil N). now rewrite app_nil_r. Qed.
Lemma back_any b fs : text fs <> [] ->
  (chars (last fs None) = [] -> back b fs = UB) /\
  (chars (last fs None) <> [] -> exists s c, text fs = s ++ [c] /\ back b fs = Ok c).
Proof.
  intros T. assert (NE : fs <> []) by (intros ->; now apply T).
  assert (L : 0 < lenN (text fs)) by (destruct (text fs); [congruence|unfold lenN; cbn [length]; lia]).
  unfold back. rewrite length_of_text, (proj2 (N.ltb_lt _ _) L), dassert_true. cbn [obind].
  destruct (exists_last NE) as (a & f & ->). rewrite last_last. unfold fchars. rewrite app_length. cbn [length].
  replace (length a + 1 - 1)%nat with (length a) by lia. rewrite nth_middle. split; intros G.
  - now rewrite G.
  - destruct (exists_last G) as (s & c & Ec). rewrite Ec, rev_app_distr. cbn [rev app]. exists (text a ++ s), c.
    rewrite text_snoc, Ec, app_assoc. auto.
Qed.

(** * substr and copy *)
Lemma gap_le fs g : gap_at fs g -> g <= lenN (text fs).
Proof. intros (k & K & _ & <-). fold (before fs k). rewrite <- before_all. apply before_le; lia. Qed.
Lemma gap_not_end fs g x : gap_at fs g -> fspot fs g x -> x <> end_of fs.
Proof.
  intros G P ->. destruct (fspot_gap fs g _ P G) as (_ & _ & L). cbn [end_of it_frag] in L. lia.
Qed.
Lemma npos_is : npos = 18446744073709551615. Proof. apply npos_val. Qed.

(** [e] is the index at which the characters taken stop. *)
Lemma substr_any b fs pos count : fits fs -> pos < lenN (text fs) -> pos + count < size_mod \/ count = npos ->
  let crossed g := pos <= g /\ gap_at fs g /\ (g < pos + count \/ lenN (text fs) <= pos + count) in
  ((exists g, crossed g) -> substr b fs pos count = misuse b) /\
  ((forall g, ~ crossed g) -> substr b fs pos count = Ok (slice (text fs) pos count)).
Proof.
  intros F L W crossed. assert (NE : fs <> []) by (intros ->; cbn in L; lia).
  pose proof F as F'. unfold fits in F'. change (2 ^ 63) with 9223372036854775808 in F'.
  unfold substr. rewrite length_of_text, (proj2 (N.leb_gt _ _)) by assumption.
  destruct (next_begin b fs pos NE F ltac:(lia)) as (it & E & P).
  destruct ((count =? npos) || (lenN (text fs) <=? sz_add pos count)) eqn:C.
  - assert (LE : lenN (text fs) <= pos + count).
    { apply orb_true_iff in C. destruct C as [C|C].
      - apply N.eqb_eq in C. rewrite npos_is in C. lia.
      - apply N.leb_le in C. destruct W as [W|W]; [rewrite sz_add_small in C by assumption; assumption|rewrite npos_is in W; lia]. }
    cbn [obind]. rewrite E. cbn [obind]. 
    rewrite (diff_ok fs (lenN (text fs)) pos) by (apply spot_wspot, spot_end, NE || apply P). rewrite (proj2 (Z.ltb_ge _ _)) by lia.
    split.
    + intros (g & G1 & G2 & _). pose proof (gap_le fs g G2).
      apply (collect_gap b fs _ pos it g); auto; [|lia]. intros j x Hj X.
      destruct (it_eq x (end_of fs)) eqn:Q; [|reflexivity]. apply it_eq_iff in Q. subst x. exfalso.
      assert (j = lenN (text fs)) by exact (wspot_inj fs _ _ _ (proj1 X) (spot_wspot _ _ _ (spot_end fs NE))).
      assert (J : j = g) by lia. rewrite J in X. exact (gap_not_end fs g _ G2 X eq_refl).
    + intros NG. replace (slice (text fs) pos count) with (slice (text fs) pos (lenN (text fs) - pos)).
      * apply collect_fspot; auto; [| |lia].
        -- replace (pos + (lenN (text fs) - pos)) with (lenN (text fs)) by lia. apply fspot_end; [assumption|].
           intros G. apply (NG (lenN (text fs))). unfold crossed. repeat split; [lia|assumption|lia].
        -- intros g Hg G. apply (NG g). unfold crossed. repeat split; [lia|assumption|lia].
      * unfold slice. rewrite !takeN_all by (rewrite lenN_dropN; lia). reflexivity.
  - apply orb_false_iff in C. destruct C as [C D]. apply N.eqb_neq in C. apply N.leb_gt in D.
    destruct W as [W|W]; [|contradiction]. rewrite sz_add_small in * by assumption.
    destruct (next_begin b fs (pos + count) NE F ltac:(lia)) as (e & -> & Q). cbn [obind]. rewrite E. cbn [obind].
    rewrite (diff_ok fs (pos + count) pos) by (apply Q || apply P). rewrite (proj2 (Z.ltb_ge _ _)) by lia. split.
    + intros (g & G1 & G2 & G3). apply (collect_gap b fs _ pos it g); auto; [|lia]. intros j x Hj X.
      rewrite (fspot_eq fs j (pos + count) x e X Q). apply N.eqb_neq. lia.
    + intros NG. apply collect_fspot; auto; [|lia]. intros g Hg G. apply (NG g). unfold crossed. repeat split; [lia|assumption|lia].
Qed.

Lemma copy_n_fspot b fs n : forall i it dest pos, fspot fs i it -> i + N.of_nat n <= lenN (text fs) -> pos + N.of_nat n <= lenN dest ->
  (forall g, i <= g < i + N.of_nat n -> ~ gap_at fs g) ->
  copy_n n b fs it dest pos = Ok (overlay dest pos (slice (text fs) i (N.of_nat n))).
Proof.
  induction n as [|n IH]; intros i it dest pos P L D G; cbn [copy_n].
  - change (N.of_nat 0) with 0. rewrite slice_0, overlay_nil by lia. reflexivity.
  - pose proof (G i ltac:(lia)) as Gi. destruct (fspot_deref b fs i it P ltac:(lia) Gi) as (c & Hc & ->). cbn [obind].
    rewrite store_ok by lia. cbn [obind]. destruct (fspot_inc b fs i it P ltac:(lia) Gi) as (it' & -> & P'). cbn [obind].
    change (takeN pos dest ++ c :: dropN (pos + 1) dest) with (overlay dest pos [c]).
    assert (LC : lenN [c] = 1) by reflexivity.
    rewrite (IH (i + 1)); auto; [|lia|rewrite overlay_length by lia; lia|intros g Hg; apply G; lia]. f_equal.
    replace (N.of_nat (S n)) with (1 + N.of_nat n) by lia. rewrite (slice_cons _ _ _ c Hc).
    rewrite <- LC at 1. rewrite (overlay_app dest pos [c] (slice (text fs) (i + 1) (N.of_nat n))) by (rewrite slice_len by lia; lia). reflexivity.
Qed.
Lemma copy_n_gap b fs n : forall i it dest pos g, fspot fs i it -> i + N.of_nat n <= lenN (text fs) -> pos + N.of_nat n <= lenN dest ->
  gap_at fs g -> i <= g < i + N.of_nat n -> copy_n n b fs it dest pos = misuse b.
Proof.
  induction n as [|n IH]; intros i it dest pos g P L D G I; cbn [copy_n]; [lia|].
  destruct (gap_dec fs i it P ltac:(lia)) as [Gi|Gi]; [now apply (fspot_deref_gap b fs i)|].
  destruct (fspot_deref b fs i it P ltac:(lia) Gi) as (c & Hc & ->). cbn [obind].
  rewrite store_ok by lia. cbn [obind]. destruct (fspot_inc b fs i it P ltac:(lia) Gi) as (it' & -> & P'). cbn [obind].
  change (takeN pos dest ++ c :: dropN (pos + 1) dest) with (overlay dest pos [c]). assert (LC : lenN [c] = 1) by reflexivity.
  apply (IH (i + 1) it' _ _ g); auto; [lia|rewrite overlay_length by lia; lia|].
  destruct (N.eq_dec i g) as [->|NE]; [contradiction|]. lia.
Qed.
Lemma copy_any b fs dest count pos : fits fs -> pos < lenN (text fs) ->
  let n := N.min count (lenN (text fs) - pos) in n <= lenN dest ->
  ((exists g, pos <= g < pos + n /\ gap_at fs g) -> copy b fs dest count pos = misuse b) /\
  ((forall g, pos <= g < pos + n -> ~ gap_at fs g) ->
     copy b fs dest count pos = Ok (slice (text fs) pos count ++ dropN n dest, n)).
Proof.
  intros F L n D. assert (NE : fs <> []) by (intros ->; cbn in L; lia).
  unfold copy. rewrite length_of_text, (proj2 (N.leb_gt _ _)) by assumption. fold n.
  destruct (next_begin b fs pos NE F ltac:(lia)) as (it & -> & P). cbn [obind]. split.
  - intros (g & Hg & G). rewrite (copy_n_gap b fs _ pos it dest 0 g); auto; [destruct b; reflexivity|lia|lia|lia].
  - intros G. rewrite (copy_n_fspot b fs _ pos it dest 0); auto; [|lia|lia|intros g Hg; apply G; lia]. cbn [obind].
    rewrite N2Nat.id. unfold overlay. rewrite takeN_0, N.add_0_l. cbn [app]. unfold n at 1. rewrite slice_min by lia.
    do 3 f_equal. f_equal. rewrite slice_len by lia. reflexivity.
Qed.

(** * Iterating backwards *)
Lemma rcollect_gap b fs k fuel : (S k < length fs)%nat -> flen fs k = 0 -> forall it,
  (k < it_frag it < length fs)%nat -> it_off it <= flen fs (it_frag it) ->
  (N.to_nat (before fs (it_frag it) + it_off it - before fs (S k)) < fuel)%nat ->
  rcollect fuel b fs it (begin_of fs) = UB.
Proof.
  intros K Z. induction fuel as [|fuel IH]; intros [j o] J O F; cbn [it_frag it_off] in *; [lia|]. cbn [rcollect].
  assert (NE : it_eq (It j o) (begin_of fs) = false).
  { unfold it_eq, begin_of. cbn [it_frag it_off]. now rewrite (proj2 (Nat.eqb_neq j 0)) by lia. }
  rewrite NE. unfold it_dec. cbn [it_frag it_off]. rewrite (proj2 (Nat.eqb_neq j 0)) by lia. cbn [andb negb]. rewrite dassert_true. cbn [obind].
  assert (DR : forall j' o', (j' < length fs)%nat -> o' < flen fs j' -> exists c, it_deref b fs (It j' o') = Ok c).
  { intros j' o' A B. unfold it_deref. cbn [it_frag it_off]. rewrite (proj2 (Nat.ltb_lt _ _) A), (proj2 (N.ltb_lt _ _) B). cbn [andb].
    rewrite dassert_true. cbn [obind]. destruct (nth_lt (fchars fs j') o' B) as [c ->]. eauto. }
  destruct (N.eqb_spec o 0) as [->|NZ].
  - destruct j as [|j']; [lia|]. destruct (N.eqb_spec (flen fs j') 0) as [E|E]; [reflexivity|]. cbn [obind].
    assert (j' <> k) by (intros ->; contradiction).
    destruct (DR j' (flen fs j' - 1) ltac:(lia) ltac:(lia)) as [c ->]. cbn [obind].
    rewrite (IH (It j' (flen fs j' - 1))); [reflexivity|cbn [it_frag]; lia|cbn [it_frag it_off]; lia|cbn [it_frag it_off]].
    rewrite before_S in F by lia. pose proof (before_le fs (S k) j' ltac:(lia) ltac:(lia)). lia.
  - cbn [obind]. destruct (DR j (o - 1) ltac:(lia) ltac:(lia)) as [c ->]. cbn [obind].
    rewrite (IH (It j (o - 1))); [reflexivity|cbn [it_frag]; lia|cbn [it_frag it_off]; lia|cbn [it_frag it_off]].
    pose proof (before_le fs (S k) j ltac:(lia) ltac:(lia)). lia.
Qed.
Lemma rwalk_not_sane b fs : fs <> [] -> ~ sane fs -> rwalk b fs = UB.
Proof.
  intros NE NS. destruct (not_sane_split fs NE NS) as (k & K & E & _). unfold rwalk. rewrite length_of_text.
  pose proof (spot_end fs NE) as (A & B & _).
  apply (rcollect_gap b fs k); auto; [cbn [end_of it_frag]; lia|cbn [end_of it_frag it_off]; lia|]. rewrite <- B. lia.
Qed.

(** * Comparison *)
Lemma fspot_not_end fs i it : fs <> [] -> fspot fs i it -> i < lenN (text fs) -> it_eq it (end_of fs) = false.
Proof.
  intros NE P L. destruct (it_eq it (end_of fs)) eqn:Q; [|reflexivity]. apply it_eq_iff in Q. subst it.
  pose proof (wspot_inj fs _ _ _ (proj1 P) (spot_wspot _ _ _ (spot_end fs NE))). lia.
Qed.
Lemma takeN_nth (s t : list N) p i : takeN p s = takeN p t -> i < p -> nth_error s (N.to_nat i) = nth_error t (N.to_nat i).
Proof.
  intros E L. unfold takeN in E. pose proof (f_equal (fun l => nth_error l (N.to_nat i)) E) as X. cbn beta in X.
  rewrite <- (firstn_skipn (N.to_nat p) s), <- (firstn_skipn (N.to_nat p) t).
  destruct (Nat.lt_ge_cases (N.to_nat i) (length (firstn (N.to_nat p) s))) as [A|A].
  - rewrite nth_error_app1 by assumption. rewrite nth_error_app1; [exact X|]. now rewrite <- E.
  - rewrite firstn_length in A. rewrite <- E in *. rewrite (skipn_all2 s) by lia.
    assert (LT : (length t <= N.to_nat p)%nat). { pose proof (f_equal (@length N) E) as Y. rewrite !firstn_length in Y. lia. }
    rewrite (skipn_all2 t) by lia. reflexivity.
Qed.

Section Compare.
  Context (b : build) (ct : chartype) (fs os : frags) (NF : fs <> []) (NO : os <> []) (p : N).
  Context (LF : p <= lenN (text fs)) (LO : p <= lenN (text os)) (EQ : takeN p (text fs) = takeN p (text os)).

  Lemma compare_reach n : forall fuel i it o, fspot fs i it -> fspot os i o -> i + N.of_nat n = p ->
    (forall g, i <= g < p -> ~ gap_at fs g /\ ~ gap_at os g) ->
    exists it' o', fspot fs p it' /\ fspot os p o' /\
      compare_loop (n + fuel) b ct fs it os o = compare_loop fuel b ct fs it' os o'.
  Proof.
    induction n as [|n IH]; intros fuel i it o P Q E G.
    - exists it, o. replace p with i by lia. auto.
    - cbn [Nat.add compare_loop]. rewrite (fspot_not_end fs i it), (fspot_not_end os i o) by (assumption || lia). cbn [negb andb].
      destruct (G i ltac:(lia)) as [G1 G2].
      destruct (fspot_deref b fs i it P ltac:(lia) G1) as (x & Hx & ->). destruct (fspot_deref b os i o Q ltac:(lia) G2) as (y & Hy & ->).
      cbn [obind]. rewrite (takeN_nth _ _ _ _ EQ) in Hx by lia. assert (x = y) by congruence. subst y. rewrite Z.ltb_irrefl.
      destruct (fspot_inc b fs i it P ltac:(lia) G1) as (it' & -> & P'). destruct (fspot_inc b os i o Q ltac:(lia) G2) as (o' & -> & Q').
      cbn [obind]. apply (IH fuel (i + 1)); auto; [lia|]. intros g Hg. apply G. lia.
  Qed.
  Lemma compare_gap n : forall fuel i it o g, fspot fs i it -> fspot os i o -> i + N.of_nat n = p -> i <= g < p ->
    gap_at fs g \/ gap_at os g -> compare_loop (n + fuel) b ct fs it os o = misuse b.
  Proof.
    induction n as [|n IH]; intros fuel i it o g P Q E L G; [lia|].
    cbn [Nat.add compare_loop]. rewrite (fspot_not_end fs i it), (fspot_not_end os i o) by (assumption || lia). cbn [negb andb].
    destruct (gap_dec fs i it P ltac:(lia)) as [G1|G1]; [now apply (fspot_deref_gap b fs i)|].
    destruct (fspot_deref b fs i it P ltac:(lia) G1) as (x & Hx & ->). cbn [obind].
    destruct (gap_dec os i o Q ltac:(lia)) as [G2|G2]; [now apply (fspot_deref_gap b os i)|].
    destruct (fspot_deref b os i o Q ltac:(lia) G2) as (y & Hy & ->).
    cbn [obind]. rewrite (takeN_nth _ _ _ _ EQ) in Hx by lia. assert (x = y) by congruence. subst y. rewrite Z.ltb_irrefl.
    destruct (fspot_inc b fs i it P ltac:(lia) G1) as (it' & -> & P'). destruct (fspot_inc b os i o Q ltac:(lia) G2) as (o' & -> & Q').
    cbn [obind]. apply (IH fuel (i + 1) it' o' g); auto; [lia|].
    assert (i <> g) by (intros ->; tauto). lia.
  Qed.
End Compare.

Lemma ends_at_eq fs p it : fs <> [] -> fspot fs p it -> (it_eq it (end_of fs) = true <-> ends_at fs p).
Proof.
  intros NE P. rewrite it_eq_iff. split.
  - intros ->. pose proof (wspot_inj fs _ _ _ (proj1 P) (spot_wspot _ _ _ (spot_end fs NE))) as E. split; [auto|].
    intros G. exact (gap_not_end fs p _ G P eq_refl).
  - intros [<- G]. exact (fspot_unique fs _ _ _ P (fspot_end fs NE G)).
Qed.
Lemma char_value_inj ct x y : code_ok ct x -> code_ok ct y -> char_value ct x = char_value ct y -> x = y.
Proof.
  destruct ct as [[]|]; unfold char_value, code_ok; intros A B; [|lia|lia].
  destruct (N.ltb_spec x 128), (N.ltb_spec y 128); lia.
Qed.

Lemma compare_any b ct fs os p : fs <> [] -> os <> [] -> part_at (text fs) (text os) p ->
  ((exists g, g < p /\ (gap_at fs g \/ gap_at os g)) -> compare_fs b ct fs os = misuse b) /\
  ((forall g, g < p -> ~ gap_at fs g /\ ~ gap_at os g) ->
     (ends_at fs p -> ends_at os p -> compare_fs b ct fs os = Ok 0%Z) /\
     (~ ends_at fs p -> ends_at os p -> compare_fs b ct fs os = Ok 1%Z) /\
     (ends_at fs p -> ~ ends_at os p -> compare_fs b ct fs os = Ok (-1)%Z) /\
     (~ ends_at fs p -> ~ ends_at os p ->
        (gap_at fs p \/ gap_at os p -> compare_fs b ct fs os = misuse b) /\
        (~ gap_at fs p -> ~ gap_at os p -> exists x y,
           nth_error (text fs) (N.to_nat p) = Some x /\ nth_error (text os) (N.to_nat p) = Some y /\ x <> y /\
           (code_ok ct x -> code_ok ct y ->
            compare_fs b ct fs os = Ok (if (char_value ct x <? char_value ct y)%Z then (-1)%Z else 1%Z))))).
Proof.
  intros NF NO (LF & LO & EQ & D). unfold compare_fs. rewrite length_of_text.
  replace (S (N.to_nat (lenN (text fs)))) with (N.to_nat p + (S (N.to_nat (lenN (text fs) - p))))%nat by lia.
  pose proof (fspot_begin fs NF) as P0. pose proof (fspot_begin os NO) as Q0. split.
  - intros (g & Hg & G). apply (compare_gap b ct fs os NF NO p LF LO EQ _ _ 0 _ _ g); auto; lia.
  - intros NG. destruct (compare_reach b ct fs os NF NO p LF LO EQ (N.to_nat p) (S (N.to_nat (lenN (text fs) - p))) 0 _ _ P0 Q0 ltac:(lia)) as (it & o & P & Q & ->).
    { intros g Hg. apply NG. lia. }
    pose proof (ends_at_eq fs p it NF P) as EF. pose proof (ends_at_eq os p o NO Q) as EO. cbn [compare_loop].
    assert (TF : forall X : Prop, ~ X -> forall c, (c = true <-> X) -> c = false) by (intros X NX c C; destruct c; tauto).
    split; [|split; [|split]].
    + intros A B. rewrite (proj2 EF A), (proj2 EO B). reflexivity.
    + intros A B. rewrite (TF _ A _ EF), (proj2 EO B). reflexivity.
    + intros A B. rewrite (proj2 EF A), (TF _ B _ EO). cbn [negb andb]. rewrite dassert_true. reflexivity.
    + intros A B. rewrite (TF _ A _ EF), (TF _ B _ EO). cbn [negb andb].
      assert (GF : p < lenN (text fs) \/ gap_at fs p).
      { destruct (N.eq_dec p (lenN (text fs))) as [->|]; [|left; lia]. right.
        pose proof P as ((X & Y & Z) & W & V). destruct (Nat.eq_dec (S (it_frag it)) (length fs)) as [U|U].
        - exfalso. apply A. apply EF. apply it_eq_iff. destruct it as [k of]. unfold end_of. cbn [it_frag it_off] in *.
          pose proof (before_S fs k X) as BS. rewrite U, before_all in BS. f_equal; [lia|]. replace (length fs - 1)%nat with k by lia. lia.
        - exists (it_frag it). split; [lia|]. pose proof (before_S fs (it_frag it) X) as BS.
          pose proof (before_le fs (S (it_frag it)) (length fs) ltac:(lia) ltac:(lia)) as BL. rewrite before_all in BL.
          destruct W as [W|[W|W]]; [lia|lia|]. split; [apply lenN_0; change (flen fs (it_frag it) = 0); lia|].
          change (before fs (it_frag it) = lenN (text fs)). lia. }
      assert (GO : p < lenN (text os) \/ gap_at os p).
      { destruct (N.eq_dec p (lenN (text os))) as [->|]; [|left; lia]. right.
        pose proof Q as ((X & Y & Z) & W & V). destruct (Nat.eq_dec (S (it_frag o)) (length os)) as [U|U].
        - exfalso. apply B. apply EO. apply it_eq_iff. destruct o as [k of]. unfold end_of. cbn [it_frag it_off] in *.
          pose proof (before_S os k X) as BS. rewrite U, before_all in BS. f_equal; [lia|]. replace (length os - 1)%nat with k by lia. lia.
        - exists (it_frag o). split; [lia|]. pose proof (before_S os (it_frag o) X) as BS.
          pose proof (before_le os (S (it_frag o)) (length os) ltac:(lia) ltac:(lia)) as BL. rewrite before_all in BL.
          destruct W as [W|[W|W]]; [lia|lia|]. split; [apply lenN_0; change (flen os (it_frag o) = 0); lia|].
          change (before os (it_frag o) = lenN (text os)). lia. }
      split.
      * intros G. assert (CF : gap_at fs p \/ (~ gap_at fs p /\ p < lenN (text fs))).
        { destruct GF as [GF|GF]; [destruct (gap_dec fs p it P GF); auto|auto]. }
        destruct CF as [CF|[CF1 CF2]]; [now apply (fspot_deref_gap b fs p)|].
        destruct (fspot_deref b fs p it P CF2 CF1) as (x & Hx & ->). cbn [obind].
        destruct G as [G|G]; [contradiction|]. now apply (fspot_deref_gap b os p).
      * intros G1 G2. destruct GF as [GF|GF]; [|contradiction]. destruct GO as [GO|GO]; [|contradiction].
        destruct (fspot_deref b fs p it P GF G1) as (x & Hx & ->). destruct (fspot_deref b os p o Q GO G2) as (y & Hy & ->). cbn [obind].
        assert (XY : x <> y). { destruct D as [D|[D|D]]; [lia|lia|]. congruence. }
        exists x, y. repeat split; auto. intros CX CY.
        destruct (Z.ltb_spec (char_value ct x) (char_value ct y)); [reflexivity|].
        rewrite (proj2 (Z.ltb_lt _ _)); [reflexivity|].
        assert (char_value ct x <> char_value ct y) by (intros X; apply XY; now apply (char_value_inj ct)). lia.
Qed.

Lemma sane_no_gap fs : sane fs <-> fs <> [] /\ forall i, ~ gap_at fs i.
Proof.
  split.
  - intros S. split; [apply S|]. intros i (k & K & Z & _). apply (sane_nonempty fs k S K). unfold flen, fchars. now rewrite Z.
  - intros [NE G]. split; [assumption|]. apply Forall_forall. intros f I X.
    destruct (In_nth (removelast fs) f (None : fragment) I) as (j & Hj & Hn).
    assert (R : forall (l : frags) j, (j < length (removelast l))%nat -> nth j l None = nth j (removelast l) None /\ (S j < length l)%nat).
    { clear. induction l as [|x l IH]; intros j Hj; [cbn in Hj; lia|]. destruct l as [|y l]; [cbn in Hj; lia|].
      change (removelast (x :: y :: l)) with (x :: removelast (y :: l)) in *. cbn [length] in Hj. destruct j as [|j].
      - split; [reflexivity|]. cbn [length]. lia.
      - destruct (IH j ltac:(lia)) as [P Q]. cbn [nth length] in *. split; [exact P|lia]. }
    destruct (R fs j Hj) as [P Q]. apply (G (before fs j)). exists j. split; [assumption|]. split; [|reflexivity].
    rewrite P. now rewrite Hn.
Qed.
Lemma trailing_empty_compare : exists fs os,
  eval (PlusPtr (PlusPtr (Lit [97; 0]) [0]) [0]) = Ok fs /\ eval (Lit [97; 0]) = Ok os /\
  to_str fs = Ok [97] /\ to_str os = Ok [97] /\
  forall b ct, compare_fs b ct fs os = Ok 1%Z /\ compare_fs b ct os fs = Ok (-1)%Z.
Proof.
  exists [Some [97]; Some []; Some []], [Some [97]]. repeat split; destruct b, ct as [[]|]; reflexivity.
Qed.
