(** Searching and matching in fragment strings that may have empty fragments. *)
From Coq Require Import List. Import ListNotations.
From Verif Require Import Base BaseFacts String_Model String_Spec String_Proofs Frag_Model Frag_Spec Frag_Proofs FragOps_Proofs FragGap_Spec FragGap_Proofs.

(** An iterator that stands in a fragment in front of a character. *)
Definition ispot (fs : frags) (i : N) (it : iter) : Prop := wspot fs i it /\ it_off it < flen fs (it_frag it).
Definition rspot (fs : frags) (i : N) (it : iter) : Prop := fspot fs i it \/ ispot fs i it.
(** An empty fragment starts at [g], and reading from [it], which is at [i], meets it. *)
Definition hit (fs : frags) (i : N) (it : iter) (g : N) : Prop :=
  gap_at fs g /\ (g = i -> ~ it_off it < flen fs (it_frag it)).

Lemma rspot_wspot fs i it : rspot fs i it -> wspot fs i it.
Proof. intros [H|H]; apply H. Qed.
Lemma fspot_hit fs i it g : fspot fs i it -> (hit fs i it g <-> gap_at fs g).
Proof.
  intros P. split; [now intros []|]. intros G. split; [assumption|]. intros ->.
  destruct (fspot_gap fs i it P G) as (_ & Z & _). lia.
Qed.
Lemma ispot_deref b fs i it : ispot fs i it -> exists c, nth_error (text fs) (N.to_nat i) = Some c /\ it_deref b fs it = Ok c.
Proof.
  intros ((A & B & C) & I). assert (L : i < lenN (text fs)).
  { pose proof (before_le fs (S (it_frag it)) (length fs) ltac:(lia) ltac:(lia)) as L. rewrite before_S, before_all in L by lia. lia. }
  destruct (nth_lt _ _ L) as [c Hc]. exists c. split; [assumption|].
  unfold it_deref. rewrite (proj2 (Nat.ltb_lt _ _) A), (proj2 (N.ltb_lt _ _) I). cbn [andb].
  rewrite dassert_true. cbn [obind]. rewrite B in Hc. rewrite nth_chars in Hc by assumption. now rewrite Hc.
Qed.
Lemma ispot_inc b fs i it : ispot fs i it -> exists it', it_inc b fs it = Ok it' /\ fspot fs (i + 1) it'.
Proof.
  intros ((A & B & C) & I). unfold it_inc.
  set (k := it_frag it) in *. rewrite (proj2 (N.eqb_neq (it_off it) (flen fs k))) by lia. rewrite andb_false_r. cbn [negb].
  rewrite dassert_true. cbn [obind]. rewrite (proj2 (N.leb_gt _ _)) by lia.
  assert (BL : forall j, (j <= k)%nat -> before fs j <= before fs k) by (intros j Hj; apply before_le; lia).
  pose proof (before_S fs k A) as X.
  destruct (N.eqb_spec (it_off it + 1) (flen fs k)) as [Q|Q].
  - destruct (Nat.eqb_spec (S k) (length fs)) as [Y|Y]; (eexists; split; [reflexivity|]).
    + split; [repeat split; cbn [it_frag it_off]; lia|]. cbn [it_frag it_off]. split; [auto|]. intros j Hj. specialize (BL j ltac:(lia)). lia.
    + split; [repeat split; cbn [it_frag it_off]; lia|]. cbn [it_frag it_off]. split; [auto|]. intros j Hj. specialize (BL j ltac:(lia)). lia.
  - eexists; split; [reflexivity|]. split; [repeat split; cbn [it_frag it_off]; lia|]. cbn [it_frag it_off]. split; [left; lia|].
    intros j Hj. specialize (BL j ltac:(lia)). lia.
Qed.

Lemma rspot_step b fs i it : rspot fs i it -> i < lenN (text fs) ->
  (hit fs i it i /\ forall A (f : N -> outcome A), obind (it_deref b fs it) f = misuse b) \/
  (~ hit fs i it i /\ ispot fs i it /\ exists c it', nth_error (text fs) (N.to_nat i) = Some c /\ it_deref b fs it = Ok c /\
     it_inc b fs it = Ok it' /\ fspot fs (i + 1) it').
Proof.
  intros P L.
  assert (K : ispot fs i it -> ~ hit fs i it i /\ ispot fs i it /\ exists c it', nth_error (text fs) (N.to_nat i) = Some c /\ it_deref b fs it = Ok c /\
     it_inc b fs it = Ok it' /\ fspot fs (i + 1) it').
  { intros I. split; [intros [_ H]; apply (H eq_refl), I|]. split; [assumption|].
    destruct (ispot_deref b fs i it I) as (c & X & Y). destruct (ispot_inc b fs i it I) as (it' & Z & W). exists c, it'. auto. }
  destruct P as [P|P]; [|right; now apply K].
  destruct (gap_dec fs i it P L) as [G|G].
  - left. split; [now apply fspot_hit|]. intros A f. now apply (fspot_deref_gap b fs i).
  - right. apply K. split; [apply P|]. now apply (fspot_inside fs i).
Qed.

Lemma equal_loop_any b f1 f2 n : forall i j x y, rspot f1 i x -> rspot f2 j y ->
  i + N.of_nat n <= lenN (text f1) -> j + N.of_nat n <= lenN (text f2) ->
  ((exists d, d < N.of_nat n /\ slice (text f1) i d = slice (text f2) j d /\ (hit f1 i x (i + d) \/ hit f2 j y (j + d))) /\
   equal_loop n b f1 x f2 y = misuse b) \/
  ((forall d, d < N.of_nat n -> slice (text f1) i d = slice (text f2) j d -> ~ hit f1 i x (i + d) /\ ~ hit f2 j y (j + d)) /\
   equal_loop n b f1 x f2 y = Ok (same (slice (text f1) i (N.of_nat n)) (slice (text f2) j (N.of_nat n)))).
Proof.
  induction n as [|n IH]; intros i j x y P Q L M; cbn [equal_loop].
  - right. split; [lia|]. change (N.of_nat 0) with 0. rewrite !slice_0. f_equal. symmetry. now apply same_iff.
  - destruct (rspot_step b f1 i x P ltac:(lia)) as [[H E]|(NH & _ & c & x' & Hc & E & E' & P')].
    { left. rewrite E. split; [|reflexivity]. exists 0. rewrite !slice_0, !N.add_0_r. split; [lia|]. split; [reflexivity|]. auto. }
    rewrite E. cbn [obind].
    destruct (rspot_step b f2 j y Q ltac:(lia)) as [[H F]|(NH2 & _ & d & y' & Hd & F & F' & Q')].
    { left. rewrite F. split; [|reflexivity]. exists 0. rewrite !slice_0, !N.add_0_r. split; [lia|]. split; [reflexivity|]. auto. }
    rewrite F. cbn [obind].
    replace (N.of_nat (Datatypes.S n)) with (1 + N.of_nat n) by lia. rewrite (slice_cons _ _ _ c Hc), (slice_cons _ _ _ d Hd), same_cons.
    assert (SH : forall g, i < g -> (hit f1 i x g <-> hit f1 (i + 1) x' g)).
    { intros g Hg. rewrite (fspot_hit f1 (i + 1) x' g P'). split; [now intros []|]. intros G. split; [assumption|lia]. }
    assert (SH2 : forall g, j < g -> (hit f2 j y g <-> hit f2 (j + 1) y' g)).
    { intros g Hg. rewrite (fspot_hit f2 (j + 1) y' g Q'). split; [now intros []|]. intros G. split; [assumption|lia]. }
    destruct (N.eqb_spec c d) as [->|NE].
    + rewrite E', F'. cbn [obind andb].
      destruct (IH (i + 1) (j + 1) x' y' (or_introl P') (or_introl Q') ltac:(lia) ltac:(lia)) as [[(e & De & Se & He) R]|[Sf R]]; [left|right].
      * split; [|assumption]. exists (1 + e). rewrite (slice_cons _ _ _ d Hc), (slice_cons _ _ _ d Hd), Se. split; [lia|]. split; [reflexivity|].
        rewrite (SH (i + (1 + e))), (SH2 (j + (1 + e))) by lia. now rewrite !N.add_assoc.
      * split; [|assumption]. intros e De. destruct (N.eq_dec e 0) as [->|NZ]; [rewrite !N.add_0_r; auto|].
        replace e with (1 + (e - 1)) by lia. rewrite (slice_cons _ _ _ d Hc), (slice_cons _ _ _ d Hd). intros X. injection X as X.
        rewrite (SH (i + (1 + (e - 1)))), (SH2 (j + (1 + (e - 1)))) by lia. rewrite !N.add_assoc. apply Sf; [lia|assumption].
    + right. cbn [andb]. split; [|reflexivity]. intros e De. destruct (N.eq_dec e 0) as [->|NZ]; [rewrite !N.add_0_r; auto|].
      replace e with (1 + (e - 1)) by lia. rewrite (slice_cons _ _ _ c Hc), (slice_cons _ _ _ d Hd). intros X. injection X as X _. contradiction.
Qed.

Lemma equal_any b f1 f2 i j n x x' y y' : rspot f1 i x -> wspot f1 (i + n) x' -> rspot f2 j y -> wspot f2 (j + n) y' ->
  ((exists d, d < n /\ slice (text f1) i d = slice (text f2) j d /\ (hit f1 i x (i + d) \/ hit f2 j y (j + d))) /\
   equal b f1 x x' f2 y y' = misuse b) \/
  ((forall d, d < n -> slice (text f1) i d = slice (text f2) j d -> ~ hit f1 i x (i + d) /\ ~ hit f2 j y (j + d)) /\
   equal b f1 x x' f2 y y' = Ok (same (slice (text f1) i n) (slice (text f2) j n))).
Proof.
  intros P P' Q Q'. unfold equal. rewrite (diff_ok f1 (i + n) i) by (assumption || now apply rspot_wspot).
  rewrite (diff_ok f2 (j + n) j) by (assumption || now apply rspot_wspot).
  pose proof (wspot_le _ _ _ P'). pose proof (wspot_le _ _ _ Q').
  rewrite (proj2 (Z.eqb_eq _ _)) by lia.
  destruct (equal_loop_any b f1 f2 (Z.to_nat (Z.of_N (i + n) - Z.of_N i)) i j x y P Q ltac:(lia) ltac:(lia)) as [H1|H1];
    replace (N.of_nat (Z.to_nat (Z.of_N (i + n) - Z.of_N i))) with n in H1 by lia; auto.
Qed.

Lemma noexcept_misuse {A} b : noexcept (@misuse A b) = abort b.
Proof. now destruct b. Qed.
Lemma slice_start s d : slice s 0 d = takeN d s.
Proof. unfold slice. now rewrite dropN_0. Qed.
Lemma fits_seek fs : fits fs -> lenN (text fs) < 9223372036854775808.
Proof. intros F. exact F. Qed.

Lemma next_any b fs i it n : fits fs -> wspot fs i it -> i + n <= lenN (text fs) ->
  exists e, next b fs it n = Ok e /\ wspot fs (i + n) e /\ (0 < n -> fspot fs (i + n) e).
Proof.
  intros F P L. apply fits_seek in F. unfold next, as_ptrdiff.
  change (2 ^ 63) with 9223372036854775808. rewrite (proj2 (N.ltb_lt n _)) by lia. unfold seek.
  destruct (N.eq_dec n 0) as [->|NZ].
  - change (Z.of_N 0) with 0%Z. rewrite Nat.add_comm. cbn [Z.ltb Z.compare Z.opp Z.to_N Nat.add seek_backward N.eqb].
    exists it. rewrite N.add_0_r. split; [reflexivity|]. split; [assumption|lia].
  - rewrite (proj2 (Z.ltb_lt _ _)) by lia. rewrite N2Z.id.
    destruct (seek_fspot b fs (length fs + 2) i it n P ltac:(lia) L ltac:(lia)) as (e & R & T).
    exists e. split; [exact R|]. split; [apply T|auto].
Qed.

Lemma starts_any b fs os : os <> [] -> fits fs -> text fs <> [] -> lenN (text os) <= lenN (text fs) ->
  ((exists d, reached (text os) (text fs) 0 d /\ (gap_at os d \/ gap_at fs d)) -> starts_with b fs os = abort b) /\
  ((forall d, reached (text os) (text fs) 0 d -> ~ gap_at os d /\ ~ gap_at fs d) ->
     exists r, starts_with b fs os = Ok r /\ (r = true <-> prefix_of (text os) (text fs))).
Proof.
  intros NO F NT L. assert (0 < lenN (text fs)) by (destruct (text fs); [contradiction|rewrite lenN_cons; lia]).
  assert (NF : fs <> []) by (intros ->; now apply NT).
  unfold starts_with. rewrite !length_of_text. rewrite (proj2 (N.eqb_neq _ 0)), (proj2 (N.ltb_ge _ _)) by lia.
  pose proof (fspot_begin fs NF) as PF. pose proof (fspot_begin os NO) as PO.
  destruct (next_any b fs 0 (begin_of fs) (lenN (text os)) F (proj1 PF) ltac:(lia)) as (e & -> & We & _). cbn [obind].
  destruct (equal_any b os fs 0 0 (lenN (text os)) (begin_of os) (end_of os) (begin_of fs) e (or_introl PO) (spot_wspot _ _ _ (spot_end os NO)) (or_introl PF) We)
    as [[(d & D & E & H1) ->]|[C ->]].
  - rewrite noexcept_misuse. split; [reflexivity|]. intros K. exfalso. rewrite !N.add_0_l in H1. 
    rewrite (fspot_hit os 0 _ d PO), (fspot_hit fs 0 _ d PF) in H1.
    destruct (K d) as [K1 K2]; [split; [assumption|now rewrite <- slice_start]|]. tauto.
  - split.
    + intros (d & [D E] & G). exfalso. destruct (C d D) as [C1 C2]; [now rewrite slice_start|].
      rewrite !N.add_0_l in C1, C2. rewrite (fspot_hit os 0 _ d PO) in C1. rewrite (fspot_hit fs 0 _ d PF) in C2. tauto.
    + intros _. cbn [noexcept]. eexists; split; [reflexivity|]. rewrite same_iff, whole_slice. now apply prefix_slice.
Qed.

Lemma spot_back b fs i x : spot fs (i + 1) x ->
  (gap_at fs (i + 1) /\ it_dec b fs x = UB) \/
  (~ gap_at fs (i + 1) /\ exists x' c, it_dec b fs x = Ok x' /\ spot fs i x' /\ nth_error (text fs) (N.to_nat i) = Some c /\ it_deref b fs x' = Ok c).
Proof.
  intros P. pose proof (wspot_le _ _ _ (spot_wspot _ _ _ P)) as LE. destruct x as [k o]. destruct P as (A & B & C). cbn [it_frag it_off] in *.
  assert (NG : forall k', (S k' < length fs)%nat -> fchars fs k' = [] -> before fs k' = i + 1 -> 0 < o \/ (exists m, k = S m /\ flen fs m <> 0) -> False).
  { intros k' K Z Bk H. assert (FZ : flen fs k' = 0) by (unfold flen; now rewrite Z).
    destruct (Nat.lt_trichotomy k' k) as [Q|[->|Q]].
    - pose proof (before_le fs k' k ltac:(lia) ltac:(lia)). destruct H as [H|(m & -> & H)]; [lia|].
      pose proof (before_le fs k' m ltac:(lia) ltac:(lia)). rewrite before_S in B by lia. lia.
    - lia.
    - pose proof (before_le fs (S k) k' ltac:(lia) ltac:(lia)) as Y. rewrite before_S in Y by lia. lia. }
  assert (DD : gap_at fs (i + 1) -> 0 < o \/ (exists m, k = S m /\ flen fs m <> 0) -> False).
  { intros (k' & K & Z & S0) H. exact (NG k' K Z S0 H). }
  assert (DS : forall x', spot fs i x' -> exists c, nth_error (text fs) (N.to_nat i) = Some c /\ it_deref b fs x' = Ok c).
  { intros x' P'. destruct (nth_lt (text fs) i ltac:(lia)) as [c Hc]. exists c. split; [assumption|]. now apply (spot_deref b fs i). }
  unfold it_dec. cbn [it_frag it_off]. destruct (N.eqb_spec o 0) as [->|NZ].
  - destruct k as [|k]; [rewrite before_0 in B; lia|]. cbn [Nat.eqb andb negb]. rewrite dassert_true. cbn [obind].
    rewrite before_S in B by lia. destruct (N.eqb_spec (flen fs k) 0) as [Z|Z].
    + left. split; [|reflexivity]. exists k. split; [lia|]. split; [apply lenN_0; exact Z|]. fold (before fs k). lia.
    + right. split; [intros G; apply (DD G); eauto|].
      assert (P' : spot fs i (It k (flen fs k - 1))) by (repeat split; cbn [it_frag it_off]; lia).
      destruct (DS _ P') as (c & X & Y). exists (It k (flen fs k - 1)), c. auto.
  - rewrite andb_false_r. cbn [negb]. rewrite dassert_true. cbn [obind]. right. split; [intros G; apply (DD G); left; lia|].
    assert (P' : spot fs i (It k (o - 1))) by (repeat split; cbn [it_frag it_off]; lia).
    destruct (DS _ P') as (c & X & Y). exists (It k (o - 1)), c. auto.
Qed.

Lemma slice_snoc s k n e : nth_error s (N.to_nat (k + n)) = Some e -> slice s k (n + 1) = slice s k n ++ [e].
Proof. intros He. unfold slice. apply takeN_snoc. rewrite <- He. rewrite !nth_error_dropN. rewrite dropN_dropN. now rewrite N.add_comm. Qed.

Lemma requal_loop_any b f1 f2 n : forall i j x y, spot f1 (i + N.of_nat n) x -> spot f2 (j + N.of_nat n) y ->
  ((exists d, d < N.of_nat n /\ slice (text f1) (i + N.of_nat n - d) d = slice (text f2) (j + N.of_nat n - d) d /\
      (gap_at f1 (i + N.of_nat n - d) \/ gap_at f2 (j + N.of_nat n - d))) /\ requal_loop n b f1 x f2 y = UB) \/
  ((forall d, d < N.of_nat n -> slice (text f1) (i + N.of_nat n - d) d = slice (text f2) (j + N.of_nat n - d) d ->
      ~ gap_at f1 (i + N.of_nat n - d) /\ ~ gap_at f2 (j + N.of_nat n - d)) /\
   requal_loop n b f1 x f2 y = Ok (same (slice (text f1) i (N.of_nat n)) (slice (text f2) j (N.of_nat n)))).
Proof.
  induction n as [|n IH]; intros i j x y P Q; cbn [requal_loop].
  - right. split; [lia|]. change (N.of_nat 0) with 0. rewrite !slice_0. f_equal. symmetry. now apply same_iff.
  - replace (N.of_nat (S n)) with (N.of_nat n + 1) in * by lia. rewrite !N.add_assoc in *.
    destruct (spot_back b f1 _ x P) as [[G ->]|(NG & x' & c & -> & P' & Hc & E)]; cbn [obind].
    { left. split; [|reflexivity]. exists 0. rewrite !slice_0, !N.sub_0_r. split; [lia|]. split; [reflexivity|]. auto. }
    rewrite E. cbn [obind].
    destruct (spot_back b f2 _ y Q) as [[G ->]|(NG2 & y' & d & -> & Q' & Hd & E2)]; cbn [obind].
    { left. split; [|reflexivity]. exists 0. rewrite !slice_0, !N.sub_0_r. split; [lia|]. split; [reflexivity|]. auto. }
    rewrite E2. cbn [obind]. rewrite (slice_snoc _ _ _ c Hc), (slice_snoc _ _ _ d Hd).
    assert (SL : forall s k e h, nth_error s (N.to_nat (k + N.of_nat n)) = Some h -> e < N.of_nat n + 1 -> 0 < e ->
      slice s (k + N.of_nat n + 1 - e) e = slice s (k + N.of_nat n - (e - 1)) (e - 1) ++ [h]).
    { intros s k e h Hh He Hz. replace e with (e - 1 + 1) at 2 by lia. replace (k + N.of_nat n + 1 - e) with (k + N.of_nat n - (e - 1)) by lia.
      apply slice_snoc. rewrite <- Hh. f_equal. lia. }
    destruct (N.eqb_spec c d) as [->|NE].
    + destruct (IH i j x' y' P' Q') as [[(e & De & Se & He) R]|[Sf R]]; [left|right].
      * split; [|assumption]. exists (e + 1). rewrite (SL _ i (e + 1) d), (SL _ j (e + 1) d) by (assumption || lia).
        replace (e + 1 - 1) with e by lia. rewrite Se. split; [lia|]. split; [reflexivity|].
        replace (i + N.of_nat n + 1 - (e + 1)) with (i + N.of_nat n - e) by lia. replace (j + N.of_nat n + 1 - (e + 1)) with (j + N.of_nat n - e) by lia. assumption.
      * split.
        -- intros e De. destruct (N.eq_dec e 0) as [->|NZ]; [rewrite !N.sub_0_r; auto|].
           rewrite (SL _ i e d), (SL _ j e d) by (assumption || lia). intros X. apply app_inj_tail in X. destruct X as [X _].
           replace (i + N.of_nat n + 1 - e) with (i + N.of_nat n - (e - 1)) by lia. replace (j + N.of_nat n + 1 - e) with (j + N.of_nat n - (e - 1)) by lia.
           apply Sf; [lia|assumption].
        -- rewrite R. f_equal. apply Bool.eq_iff_eq_true. rewrite !same_iff. split; [now intros ->|]. intros X. now apply app_inj_tail in X.
    + right. split.
      * intros e De. destruct (N.eq_dec e 0) as [->|NZ]; [rewrite !N.sub_0_r; auto|].
        rewrite (SL _ i e c), (SL _ j e d) by (assumption || lia). intros X. apply app_inj_tail in X. now destruct X.
      * f_equal. symmetry. apply Bool.not_true_is_false. rewrite same_iff. intros X. apply app_inj_tail in X. now destruct X.
Qed.

Lemma slice_end s d : d <= lenN s -> slice s (lenN s - d) d = dropN (lenN s - d) s.
Proof. intros L. unfold slice. apply takeN_all. rewrite lenN_dropN. lia. Qed.

Lemma ends_any b fs os : os <> [] -> fits fs -> text fs <> [] -> lenN (text os) <= lenN (text fs) ->
  ((exists d, reached_back (text os) (text fs) d /\ (gap_at os (lenN (text os) - d) \/ gap_at fs (lenN (text fs) - d))) ->
     ends_with b fs os = UB) /\
  ((forall d, reached_back (text os) (text fs) d -> ~ gap_at os (lenN (text os) - d) /\ ~ gap_at fs (lenN (text fs) - d)) ->
     exists r, ends_with b fs os = Ok r /\ (r = true <-> suffix_of (text os) (text fs))).
Proof.
  intros NO F NT L. assert (0 < lenN (text fs)) by (destruct (text fs); [contradiction|rewrite lenN_cons; lia]).
  assert (NF : fs <> []) by (intros ->; now apply NT).
  unfold ends_with. rewrite !length_of_text. rewrite (proj2 (N.eqb_neq _ 0)), (proj2 (N.ltb_ge _ _)) by lia.
  assert (SK : exists e, seek_minus b fs (end_of fs) (as_ptrdiff (lenN (text os))) = Ok e /\ wspot fs (lenN (text fs) - lenN (text os)) e).
  { apply fits_seek in F. unfold seek_minus, as_ptrdiff.
    rewrite (proj2 (N.ltb_lt _ (2 ^ 63))) by (change (2 ^ 63) with 9223372036854775808; lia).
    change (- 2 ^ 63)%Z with (-9223372036854775808)%Z. rewrite (proj2 (Z.eqb_neq _ _)) by lia. unfold seek.
    rewrite (proj2 (Z.ltb_ge _ _)) by lia. change (- 2 ^ 63)%Z with (-9223372036854775808)%Z. rewrite (proj2 (Z.eqb_neq _ _)) by lia.
    rewrite Z.opp_involutive, N2Z.id. destruct (N.eq_dec (lenN (text os)) 0) as [->|NZ].
    - exists (end_of fs). rewrite Nat.add_comm. cbn [Nat.add seek_backward N.eqb]. rewrite N.sub_0_r. split; [reflexivity|]. now apply spot_wspot, spot_end.
    - pose proof (spot_wspot _ _ _ (spot_end fs NF)) as W. pose proof W as (A & _).
      destruct (seek_backward_ok b fs (length fs + 2) _ _ (lenN (text os)) W ltac:(lia) ltac:(lia)) as (e & R & P).
      exists e. split; [assumption|]. now apply spot_wspot. }
  destruct SK as (e & -> & We). cbn [obind]. unfold requal.
  rewrite (diff_ok os (lenN (text os)) 0), (diff_ok fs (lenN (text fs)) (lenN (text fs) - lenN (text os)));
    auto using wspot_begin; try (apply spot_wspot, spot_end; assumption).
  rewrite (proj2 (Z.eqb_eq _ _)) by lia. set (n := Z.to_nat (Z.of_N (lenN (text os)) - Z.of_N 0)).
  assert (En : N.of_nat n = lenN (text os)) by (unfold n; lia).
  destruct (requal_loop_any b os fs n 0 (lenN (text fs) - lenN (text os)) (end_of os) (end_of fs)) as [[(d & D & S & G) ->]|[C ->]].
  - rewrite En, N.add_0_l. now apply spot_end.
  - rewrite En. replace (lenN (text fs) - lenN (text os) + lenN (text os)) with (lenN (text fs)) by lia. now apply spot_end.
  - rewrite En in *. replace (lenN (text fs) - lenN (text os) + lenN (text os)) with (lenN (text fs)) in * by lia. rewrite N.add_0_l in *.
    split; [reflexivity|]. intros K. exfalso. rewrite !slice_end in S by lia. destruct (K d (conj D S)) as [K1 K2]. tauto.
  - rewrite En in *. replace (lenN (text fs) - lenN (text os) + lenN (text os)) with (lenN (text fs)) in * by lia. rewrite N.add_0_l in *.
    split.
    + intros (d & [D S] & G). exfalso. destruct (C d D) as [C1 C2]; [rewrite !slice_end by lia; exact S|]. tauto.
    + intros _. cbn [noexcept]. eexists; split; [reflexivity|]. rewrite same_iff, whole_slice. now apply suffix_slice.
Qed.

(** * find *)
Lemma gap_dec_all fs i it : fspot fs i it -> gap_at fs i \/ ~ gap_at fs i.
Proof.
  intros P. destruct (N.eq_dec (flen fs (it_frag it)) 0) as [Z|Z]; [|right; intros G; destruct (fspot_gap fs i it P G) as (_ & Y & _); contradiction].
  destruct (Nat.lt_ge_cases (S (it_frag it)) (length fs)) as [Q|Q]; [|right; intros G; destruct (fspot_gap fs i it P G) as (_ & _ & Y); lia].
  left. destruct P as ((A & B & C) & _). exists (it_frag it). split; [assumption|]. split; [apply lenN_0; exact Z|].
  fold (before fs (it_frag it)). lia.
Qed.
Lemma fspot_inc_gap b fs i it : fspot fs i it -> gap_at fs i -> it_inc b fs it = UB.
Proof.
  intros P G. destruct (fspot_gap fs i it P G) as (O & Z & L). unfold it_inc. rewrite (proj2 (Nat.eqb_neq _ _)) by lia.
  cbn [andb negb]. rewrite dassert_true. cbn [obind]. rewrite O, Z. reflexivity.
Qed.
Lemma no_gap_one sv g : ~ gap_at [Some sv] g.
Proof. intros (k & K & _). cbn [length] in K. lia. Qed.

Section Find.
Variables (b : build) (fs : frags) (sv : list N) (pos : N).
Hypothesis F : fits fs.
Hypothesis NZ : 0 < lenN sv.
Let t := text fs.
Let bad g := gap_at fs g /\ (g = pos -> pos = 0).
Let clean j := forall d, reached sv t j d -> ~ bad (j + d).
Let passes j := clean j /\ (occurs_at sv t j \/ ~ gap_at fs (j + lenN sv)).

Lemma find_loop_any fuel : forall j it e, rspot fs j it -> fspot fs (j + lenN sv) e -> tried sv t pos j ->
  (forall g, j <= g -> (hit fs j it g <-> bad g)) -> (N.to_nat (lenN t - j) < fuel)%nat ->
  (exists j', j <= j' /\ tried sv t pos j' /\ (forall i, j <= i < j' -> passes i) /\
     (((exists d, reached sv t j' d /\ bad (j' + d)) /\ find_loop fuel b fs sv it e j = misuse b) \/
      (clean j' /\ ~ occurs_at sv t j' /\ gap_at fs (j' + lenN sv) /\ find_loop fuel b fs sv it e j = UB))) \/
  ((forall i, j <= i -> tried sv t pos i -> passes i) /\
     exists r, find_loop fuel b fs sv it e j = Ok r /\ first_match (occurs_at sv t) j r).
Proof.
  induction fuel as [|fuel IH]; intros j it e P Q T HB FU; [lia|]. cbn [find_loop].
  pose proof (wspot_le _ _ _ (proj1 Q)) as L. pose proof (fits_seek fs F) as FS. fold t in L, FS.
  assert (PO : fspot [Some sv] 0 (begin_of [Some sv])) by (apply fspot_begin; discriminate).
  assert (WE : wspot [Some sv] (0 + lenN sv) (end_of [Some sv])) by (rewrite N.add_0_l; apply spot_wspot, spot_end_one).
  pose proof (equal_any b [Some sv] fs 0 j (lenN sv) (begin_of [Some sv]) (end_of [Some sv]) it e (or_introl PO) WE P (proj1 Q)) as EA.
  rewrite text_one in EA. fold t in EA. destruct EA as [[(d & D & S & H) ->]|[C ->]].
  { left. exists j. split; [lia|]. split; [assumption|]. split; [lia|]. left.
    split; [|now destruct b]. exists d. rewrite slice_start in S. split; [now split|]. apply HB; [lia|].
    destruct H as [H|H]; [|assumption]. rewrite (fspot_hit [Some sv] 0 _ _ PO) in H. destruct (no_gap_one sv _ H). }
  cbn [obind].
  assert (CL : clean j).
  { intros d [D S] B. destruct (C d D) as [_ K]; [now rewrite slice_start|]. apply K, HB; [lia|assumption]. }
  assert (OC : same (slice sv 0 (lenN sv)) (slice t j (lenN sv)) = true <-> occurs_at sv t j).
  { rewrite same_iff, whole_slice, occurs_slice by assumption. split; congruence. }
  destruct (same (slice sv 0 (lenN sv)) (slice t j (lenN sv))) eqn:SM.
  { right. assert (O : occurs_at sv t j) by now apply OC. split.
    - intros i Hi (Ti & _ & Tn). destruct (N.eq_dec i j) as [->|NE]; [split; auto|]. elim (Tn j); [|assumption]. destruct T as [T _]. lia.
    - exists j. split; [reflexivity|]. left. rewrite npos_val. repeat split; [lia|lia|assumption|lia]. }
  assert (NOC : ~ occurs_at sv t j) by (rewrite <- OC; discriminate). clear OC SM.
  assert (NEf : fs <> []) by (intros E; destruct Q as ((A & _) & _); rewrite E in A; cbn in A; lia).
  assert (NXT : ~ hit fs j it j).
  { destruct (C 0 ltac:(lia)) as [_ K]; [now rewrite !slice_0|]. now rewrite N.add_0_r in K. }
  destruct (rspot_step b fs j it P ltac:(unfold t in *; lia)) as [[H _]|(_ & _ & c & it' & _ & _ & INC & P')]; [contradiction|].
  destruct (gap_dec_all fs _ e Q) as [G|G].
  { left. exists j. split; [lia|]. split; [assumption|]. split; [lia|]. right. repeat split; auto.
    assert (EF : it_eq e (end_of fs) = false).
    { apply Bool.not_true_is_false. rewrite it_eq_iff. now apply (gap_not_end fs (j + lenN sv)). }
    rewrite EF, INC. cbn [obind]. now rewrite (fspot_inc_gap b fs _ e Q G). }
  destruct (N.eq_dec (j + lenN sv) (lenN t)) as [E|E].
  - assert (EE : it_eq e (end_of fs) = true).
    { apply (ends_at_eq fs (j + lenN sv)); auto. split; [|assumption]. unfold t in E. congruence. }
    rewrite EE. right. split.
    + intros i Hi (_ & Ti & _). assert (i = j) by lia. subst i. split; auto.
    + exists npos. split; [reflexivity|]. right. split; [reflexivity|]. intros i Hi O. pose proof (occurs_len _ _ _ O).
      assert (i = j) by lia. now subst i.
  - assert (EF : it_eq e (end_of fs) = false) by (apply (fspot_not_end fs (j + lenN sv)); auto; unfold t in *; lia).
    rewrite EF, INC. cbn [obind].
    destruct (fspot_inc b fs _ e Q ltac:(unfold t in *; lia) G) as (e' & -> & Q'). cbn [obind].
    assert (T' : tried sv t pos (j + 1)).
    { destruct T as (T1 & T2 & T3). split; [lia|]. split; [lia|]. intros i Hi. destruct (N.eq_dec i j) as [->|]; [assumption|]. apply T3. lia. }
    destruct (IH (j + 1) it' e') as [(j' & J1 & J2 & J3 & J4)|[J1 (r & J2 & J3)]].
    + now left.
    + replace (j + 1 + lenN sv) with (j + lenN sv + 1) by lia. assumption.
    + assumption.
    + intros g Hg. rewrite (fspot_hit fs _ it' g P'). destruct T as (T & _). unfold bad. split; [|tauto]. intros X. split; [assumption|lia].
    + lia.
    + left. exists j'. split; [lia|]. split; [assumption|]. split; [|assumption].
      intros i Hi. destruct (N.eq_dec i j) as [->|]; [split; auto|]. apply J3. lia.
    + right. split.
      * intros i Hi Ti. destruct (N.eq_dec i j) as [->|]; [split; auto|]. apply J1; [lia|assumption].
      * exists r. split; [assumption|]. destruct J3 as [(A & B & C' & D)|(A & B)]; [left|right].
        -- repeat split; auto; [lia|]. intros i Hi. destruct (N.eq_dec i j) as [->|]; [assumption|]. apply D. lia.
        -- split; [assumption|]. intros i Hi. destruct (N.eq_dec i j) as [->|]; [assumption|]. apply B. lia.
Qed.

Hypothesis L : pos + lenN sv <= lenN t.
Lemma find_sv_cases :
  (exists j', tried sv t pos j' /\ (forall i, pos <= i < j' -> passes i) /\
     (((exists d, reached sv t j' d /\ bad (j' + d)) /\ find_sv b fs sv pos = abort b) \/
      (clean j' /\ ~ occurs_at sv t j' /\ gap_at fs (j' + lenN sv) /\ find_sv b fs sv pos = UB))) \/
  ((forall i, tried sv t pos i -> passes i) /\
     exists r, find_sv b fs sv pos = Ok r /\ first_match (occurs_at sv t) pos r).
Proof.
  pose proof (fits_seek fs F) as FS. fold t in FS. unfold find_sv. rewrite length_of_text. fold t.
  rewrite sz_add_small by (change size_mod with 18446744073709551616; lia).
  rewrite (proj2 (N.ltb_ge _ _)), (proj2 (N.ltb_ge _ _)) by lia.
  assert (NF : fs <> []) by (intros E; unfold t in L; rewrite E in L; unfold text in L; cbn in L; lia).
  assert (ST : exists k, seek_fragment fs pos = Ok (k, before fs k) /\ rspot fs pos (It k (pos - before fs k)) /\
    forall g, pos <= g -> (hit fs pos (It k (pos - before fs k)) g <-> bad g)).
  { destruct (N.eq_dec pos 0) as [->|NP].
    - exists 0%nat. rewrite before_0. split; [reflexivity|]. rewrite N.sub_0_r. split; [left; now apply fspot_begin|].
      intros g _. rewrite (fspot_hit fs 0 (It 0 0) g) by now apply fspot_begin. unfold bad. tauto.
    - destruct (seek_fragment_ok fs pos ltac:(unfold t in *; lia) ltac:(lia)) as (k & E & K & B). exists k. split; [assumption|].
      rewrite before_S in B by assumption. assert (I : ispot fs pos (It k (pos - before fs k))).
      { split; [repeat split|]; cbn [it_frag it_off]; lia. }
      split; [now right|]. intros g Hg. unfold hit, bad. cbn [it_frag it_off]. split; intros [G H]; (split; [assumption|]).
      + intros ->. elim (H eq_refl). lia.
      + intros ->. elim NP. auto. }
  destruct ST as (k & -> & P & HB). cbn [obind].
  destruct (next_any b fs pos _ (lenN sv) F (rspot_wspot _ _ _ P) ltac:(unfold t in *; lia)) as (e & -> & _ & Q). cbn [obind].
  destruct (find_loop_any (S (N.to_nat (lenN t))) pos _ e P (Q NZ)) as [(j' & J1 & J2 & J3 & J4)|[J1 (r & J2 & J3)]]; auto.
  - split; [lia|]. split; [assumption|lia].
  - lia.
  - left. exists j'. split; [assumption|]. split; [assumption|].
    destruct J4 as [[A ->]|(A & B & C & ->)]; [left|right]; [split; [assumption|now rewrite noexcept_misuse]|auto].
  - right. split.
    + intros i Ti. apply J1; [apply Ti|assumption].
    + exists r. rewrite J2. split; [reflexivity|assumption].
Qed.

Lemma find_sv_any :
  ((forall j, tried sv t pos j -> passes j) -> exists r, find_sv b fs sv pos = Ok r /\ first_match (occurs_at sv t) pos r) /\
  (forall j, tried sv t pos j -> (forall i, pos <= i < j -> passes i) ->
     ((exists d, reached sv t j d /\ bad (j + d)) -> find_sv b fs sv pos = abort b) /\
     (clean j -> ~ occurs_at sv t j -> gap_at fs (j + lenN sv) -> find_sv b fs sv pos = UB)).
Proof.
  assert (TR : forall i j, tried sv t pos j -> pos <= i < j -> tried sv t pos i).
  { intros i j (T1 & T2 & T3) H. split; [lia|]. split; [lia|]. intros. apply T3. lia. }
  assert (ND : forall j, passes j -> (exists d, reached sv t j d /\ bad (j + d)) -> False).
  { intros j [C _] (d & R & B). exact (C d R B). }
  destruct find_sv_cases as [(j' & J1 & J2 & J3)|[J1 J2]].
  - split.
    + intros K. exfalso. destruct J3 as [[J3 _]|(J3 & J4 & J5 & _)]; [exact (ND j' (K j' J1) J3)|].
      destruct (K j' J1) as [_ [X|X]]; contradiction.
    + intros j Tj Pj. destruct (N.lt_trichotomy j j') as [Q|[->|Q]].
      * destruct Tj as (T1 & _). assert (PJ : passes j) by (apply J2; lia). split; [intros X; destruct (ND j PJ X)|].
        intros _ NO G. destruct PJ as [_ [X|X]]; contradiction.
      * destruct J3 as [[J3 ->]|(J3 & J4 & J5 & ->)]; (split; [|]).
        -- reflexivity.
        -- intros C. destruct J3 as (d & R & B). destruct (C d R B).
        -- intros (d & R & B). destruct (J3 d R B).
        -- reflexivity.
      * destruct J1 as (T1 & _). assert (PJ : passes j') by (apply Pj; lia). exfalso.
        destruct J3 as [[J3 _]|(J3 & J4 & J5 & _)]; [exact (ND j' PJ J3)|]. destruct PJ as [_ [X|X]]; contradiction.
  - split; [intros _; exact J2|]. intros j Tj _. pose proof (J1 j Tj) as PJ. split; [intros X; destruct (ND j PJ X)|].
    intros _ NO G. destruct PJ as [_ [X|X]]; contradiction.
Qed.
End Find.

Lemma find_empty b fs pos : fits fs -> pos < lenN (text fs) \/ pos = 0 -> find_sv b fs [] pos = Ok pos.
Proof.
  intros F L. pose proof (fits_seek fs F) as FS. unfold find_sv. rewrite length_of_text. change (lenN []) with 0.
  rewrite sz_add_small by (change size_mod with 18446744073709551616; lia). rewrite N.add_0_r.
  rewrite (proj2 (N.ltb_ge _ _)), (proj2 (N.ltb_ge _ _)) by lia.
  assert (ST : exists k c, seek_fragment fs pos = Ok (k, c)).
  { destruct (N.eq_dec pos 0) as [->|NP]; [exists 0%nat, 0; reflexivity|].
    destruct (seek_fragment_ok fs pos ltac:(lia) ltac:(lia)) as (k & E & _). exists k, (before fs k). exact E. }
  destruct ST as (k & c & ->). cbn [obind]. unfold next. change (as_ptrdiff 0) with 0%Z. unfold seek. rewrite Nat.add_comm.
  cbn [Z.ltb Z.compare Z.eqb Z.opp Z.to_N Nat.add seek_backward N.eqb Z.pow Z.pow_pos].
  cbn [obind find_loop]. set (it := It k (pos - c)).
  assert (D : forall f i, it_diff f i i = 0%Z). { intros f i. unfold it_diff. rewrite Nat.ltb_irrefl. lia. }
  change (- Z.pow_pos 2 63)%Z with (-9223372036854775808)%Z. cbn [obind]. unfold equal. rewrite (D fs it). reflexivity.
Qed.

Lemma find_too_long b fs sv pos : pos + lenN sv < size_mod -> lenN (text fs) < pos + lenN sv -> find_sv b fs sv pos = Ok npos.
Proof.
  intros W L. unfold find_sv. rewrite length_of_text, sz_add_small by assumption. now rewrite (proj2 (N.ltb_lt _ _)).
Qed.

Lemma contains_sv_any b fs sv : fits fs -> sv <> [] -> lenN sv <= lenN (text fs) ->
  let clean j := forall d, reached sv (text fs) j d -> ~ gap_at fs (j + d) in
  let passes j := clean j /\ (occurs_at sv (text fs) j \/ ~ gap_at fs (j + lenN sv)) in
  ((forall j, tried sv (text fs) 0 j -> passes j) -> exists r, contains_sv b fs sv = Ok r /\ (r = true <-> occurs sv (text fs))) /\
  (forall j, tried sv (text fs) 0 j -> (forall i, i < j -> passes i) ->
     ((exists d, reached sv (text fs) j d /\ gap_at fs (j + d)) -> contains_sv b fs sv = abort b) /\
     (clean j -> ~ occurs_at sv (text fs) j -> gap_at fs (j + lenN sv) -> contains_sv b fs sv = UB)).
Proof.
  intros F NE L clean passes. assert (NZ : 0 < lenN sv) by (destruct sv; [contradiction|rewrite lenN_cons; lia]).
  destruct (find_sv_any b fs sv 0 F NZ ltac:(lia)) as [A B].
  assert (CL : forall j, clean j <-> forall d, reached sv (text fs) j d -> ~ (gap_at fs (j + d) /\ (j + d = 0 -> 0 = 0))).
  { intros j. unfold clean. split; intros H d R; specialize (H d R); tauto. }
  assert (PS : forall j, passes j -> (forall d, reached sv (text fs) j d -> ~ (gap_at fs (j + d) /\ (j + d = 0 -> 0 = 0))) /\
    (occurs_at sv (text fs) j \/ ~ gap_at fs (j + lenN sv))).
  { intros j [H1 H2]. split; [now apply CL|assumption]. }
  unfold contains_sv. split.
  - intros K. destruct A as (r & -> & M); [intros j Tj; apply PS, K, Tj|]. cbn [obind]. eexists; split; [reflexivity|].
    rewrite negb_true_iff, N.eqb_neq. destruct M as [(M1 & M2 & M3 & M4)|(M1 & M2)].
    + split; [intros _; now exists r|auto].
    + split; [contradiction|]. intros (i & O) _. apply (M2 i); [lia|assumption].
  - intros j Tj Pj. destruct (B j Tj) as [B1 B2]; [intros i Hi; apply PS, Pj; lia|]. split.
    + intros (d & R & G). rewrite B1; [now destruct b|]. exists d. split; [assumption|]. split; [assumption|reflexivity].
    + intros C NO G. rewrite B2; auto. now apply CL.
Qed.
Lemma contains_sv_trivial b fs sv : fits fs -> lenN sv < size_mod ->
  (sv = [] -> contains_sv b fs sv = Ok true) /\ (lenN (text fs) < lenN sv -> contains_sv b fs sv = Ok false).
Proof.
  intros F W. unfold contains_sv. split.
  - intros ->. rewrite (find_empty b fs 0 F) by now right. reflexivity.
  - intros L. rewrite (find_too_long b fs sv 0) by (rewrite N.add_0_l; assumption). reflexivity.
Qed.

(** * contains(fragment_string) *)
Section Contains.
Variables (b : build) (fs os : frags).
Hypothesis F : fits fs.
Hypothesis NO : os <> [].
Let t := text fs.
Let s := text os.
Hypothesis L : lenN s <= lenN t.
Let cand j := j + lenN s < lenN t /\ forall i, i < j -> ~ occurs_at s t i.
Let clean j := forall d, reached s t j d -> ~ gap_at os d /\ ~ gap_at fs (j + d).

Lemma contains_loop_any last fuel : fspot fs (lenN t - lenN s) last -> forall j it eff, fspot fs j it -> j + lenN s <= lenN t ->
  (forall i, i < j -> ~ occurs_at s t i) -> lenN t - j <= eff -> (N.to_nat (lenN t - j) < fuel)%nat ->
  (exists j' d, j <= j' /\ cand j' /\ reached s t j' d /\ (gap_at os d \/ gap_at fs (j' + d)) /\
     contains_loop fuel b fs os it last eff = misuse b) \/
  ((forall i, j <= i -> cand i -> clean i) /\
     exists r, contains_loop fuel b fs os it last eff = Ok r /\ (r = true <-> exists i, j <= i /\ i + lenN s < lenN t /\ occurs_at s t i)).
Proof.
  intros PL. induction fuel as [|fuel IH]; intros j it eff P J NB EF FU; [lia|]. cbn [contains_loop].
  rewrite (fspot_eq fs j (lenN t - lenN s) it last P PL). destruct (N.eqb_spec j (lenN t - lenN s)) as [E|E].
  - cbn [negb andb]. right. split; [intros i Hi [Ci _]; lia|]. exists false. split; [reflexivity|]. split; [discriminate|]. intros (i & I1 & I2 & _). lia.
  - assert (EN : eff =? 0 = false) by (apply N.eqb_neq; lia). rewrite EN. cbn [negb andb].
    destruct (next_any b fs j it (length_of os) F (proj1 P)) as (e & -> & We & _); [rewrite length_of_text; unfold t, s in *; lia|]. cbn [obind].
    rewrite length_of_text in We. pose proof (fspot_begin os NO) as PO.
    destruct (equal_any b os fs 0 j (lenN (text os)) (begin_of os) (end_of os) it e (or_introl PO) (spot_wspot _ _ _ (spot_end os NO)) (or_introl P) We)
      as [[(d & D & S & H) ->]|[C ->]].
    + left. exists j, d. split; [lia|]. split; [split; [lia|assumption]|]. rewrite slice_start in S. split; [now split|].
      rewrite (fspot_hit os 0 _ _ PO), (fspot_hit fs j _ _ P), N.add_0_l in H. split; [assumption|]. now destruct b.
    + cbn [obind]. fold s in C. fold t in C.
      assert (CL : clean j).
      { intros d [D S]. destruct (C d D) as [C1 C2]; [now rewrite slice_start|].
        rewrite (fspot_hit os 0 _ _ PO), N.add_0_l in C1. rewrite (fspot_hit fs j _ _ P) in C2. auto. }
      fold s. fold t. rewrite whole_slice.
      assert (OC : same s (slice t j (lenN s)) = true <-> occurs_at s t j).
      { rewrite same_iff, occurs_slice by assumption. split; congruence. }
      destruct (same s (slice t j (lenN s))) eqn:SM.
      * right. assert (O : occurs_at s t j) by now apply OC. split.
        -- intros i Hi [_ Ci]. destruct (N.eq_dec i j) as [->|]; [assumption|]. elim (Ci j); [lia|assumption].
        -- exists true. split; [reflexivity|]. split; [|reflexivity]. intros _. exists j. repeat split; [lia|lia|assumption].
      * assert (NOC : ~ occurs_at s t j) by (rewrite <- OC; discriminate). clear OC.
        assert (NZ : 0 < lenN s).
        { destruct (N.eq_dec (lenN s) 0) as [Z|]; [|lia]. apply lenN_0 in Z. rewrite Z in SM. change (lenN []) with 0 in SM. rewrite slice_0 in SM.
          assert (same [] [] = true) by now apply same_iff. congruence. }
        assert (NG : ~ gap_at fs j). { destruct (CL 0) as [_ K]; [split; [assumption|now rewrite slice_0, takeN_0]|]. now rewrite N.add_0_r in K. }
        destruct (fspot_inc b fs j it P ltac:(unfold t in *; lia) NG) as (it' & -> & P'). cbn [obind].
        destruct (IH (j + 1) it' (eff - 1) P') as [(j' & d & J1 & J2 & J3 & J4 & J5)|[J1 (r & J2 & J3)]].
        -- lia.
        -- intros i Hi. destruct (N.eq_dec i j) as [->|]; [assumption|]. apply NB. lia.
        -- lia.
        -- lia.
        -- left. exists j', d. split; [lia|]. auto.
        -- right. split.
           ++ intros i Hi Ci. destruct (N.eq_dec i j) as [->|]; [assumption|]. apply J1; [lia|assumption].
           ++ exists r. split; [assumption|]. rewrite J3. split; intros (i & I1 & I2 & I3).
              ** exists i. repeat split; auto; lia.
              ** destruct (N.eq_dec i j) as [->|]; [contradiction|]. exists i. repeat split; auto; lia.
Qed.

Lemma contains_fs_any : fs <> [] ->
  ((exists j d, cand j /\ reached s t j d /\ (gap_at os d \/ gap_at fs (j + d))) -> contains_fs b fs os = abort b) /\
  ((forall j, cand j -> clean j) ->
     exists r, contains_fs b fs os = Ok r /\ (r = true <-> exists j, j + lenN s < lenN t /\ occurs_at s t j)).
Proof.
  intros NF. unfold contains_fs. rewrite !length_of_text. fold s. fold t. rewrite (proj2 (N.ltb_ge _ _)) by lia.
  destruct (next_begin b fs (lenN t - lenN s) NF F ltac:(unfold t in *; lia)) as (last & -> & PL). cbn [obind].
  destruct (contains_loop_any last (S (N.to_nat (lenN t))) PL 0 (begin_of fs) (lenN t) (fspot_begin fs NF) ltac:(lia) ltac:(lia) ltac:(lia) ltac:(lia))
    as [(j' & d & J1 & J2 & J3 & J4 & ->)|[J1 (r & -> & J3)]].
  - rewrite noexcept_misuse. split; [reflexivity|]. intros K. exfalso. destruct (K j' J2 d J3) as [K1 K2]. tauto.
  - split.
    + intros (j & d & C & R & G). exfalso. destruct (J1 j ltac:(lia) C d R) as [K1 K2]. tauto.
    + intros _. exists r. split; [reflexivity|]. rewrite J3. split; intros (i & I); exists i; [tauto|]. split; [lia|assumption].
Qed.
End Contains.

(** * starts_with(c) and ends_with(c) *)
Lemma starts_char_any b fs c : text fs <> [] ->
  (gap_at fs 0 -> starts_with_char b fs c = UB) /\
  (~ gap_at fs 0 -> exists r, starts_with_char b fs c = Ok r /\ (r = true <-> prefix_of [c] (text fs))).
Proof.
  intros NT. unfold starts_with_char. assert (E : empty fs = false).
  { unfold empty. rewrite length_of_text. apply N.eqb_neq. destruct (text fs); [contradiction|rewrite lenN_cons; lia]. }
  rewrite E. destruct (front_any b fs NT) as [A B]. split; intros G.
  - now rewrite (A G).
  - destruct (B G) as (x & s & T & ->). cbn [obind noexcept]. eexists; split; [reflexivity|]. rewrite N.eqb_eq, T. split.
    + intros ->. now exists s.
    + intros (r & R). now injection R.
Qed.
Lemma ends_char_any b fs c : text fs <> [] ->
  (chars (last fs None) = [] -> ends_with_char b fs c = UB) /\
  (chars (last fs None) <> [] -> exists r, ends_with_char b fs c = Ok r /\ (r = true <-> suffix_of [c] (text fs))).
Proof.
  intros NT. unfold ends_with_char. assert (E : empty fs = false).
  { unfold empty. rewrite length_of_text. apply N.eqb_neq. destruct (text fs); [contradiction|rewrite lenN_cons; lia]. }
  rewrite E. destruct (back_any b fs NT) as [A B]. split; intros G.
  - now rewrite (A G).
  - destruct (B G) as (s & x & T & ->). cbn [obind noexcept]. eexists; split; [reflexivity|]. rewrite N.eqb_eq, T. split.
    + intros ->. now exists s.
    + intros (r & R). apply app_inj_tail in R. now destruct R.
Qed.
Lemma starts_ends_longer b fs os : lenN (text fs) < lenN (text os) -> starts_with b fs os = Ok false /\ ends_with b fs os = Ok false.
Proof.
  intros L. unfold starts_with, ends_with. rewrite !length_of_text. rewrite (proj2 (N.ltb_lt _ _)) by assumption.
  destruct (lenN (text fs) =? 0); auto.
Qed.
Lemma contains_longer b fs os : lenN (text fs) < lenN (text os) -> contains_fs b fs os = Ok false.
Proof. intros L. unfold contains_fs. rewrite !length_of_text. now rewrite (proj2 (N.ltb_lt _ _)) by assumption. Qed.

(** * Positions *)
Lemma fspot_cmp fs i j a b : fspot fs i a -> fspot fs j b -> it_cmp a b = (i ?= j).
Proof.
  intros A B. pose proof (fspot_eq fs i j a b A B) as EQ. destruct a as [k o], b as [k' o'].
  destruct A as ((A1 & A2 & A3) & _ & A4), B as ((B1 & B2 & B3) & _ & B4). unfold it_cmp. cbn [it_frag it_off] in *.
  destruct (Nat.compare_spec k k') as [->|Q|Q].
  - destruct (N.compare_spec o o'); symmetry; [apply N.compare_eq_iff|apply N.compare_lt_iff|apply N.compare_gt_iff]; lia.
  - symmetry. apply N.compare_lt_iff. pose proof (before_le fs (S k) k' ltac:(lia) ltac:(lia)) as Y. rewrite before_S in Y by lia.
    specialize (B4 k Q). destruct (N.eq_dec i j) as [->|]; [|lia]. rewrite N.eqb_refl in EQ. unfold it_eq in EQ. cbn [it_frag it_off] in EQ.
    rewrite (proj2 (Nat.eqb_neq k k')) in EQ by lia. discriminate EQ.
  - symmetry. apply N.compare_gt_iff. pose proof (before_le fs (S k') k ltac:(lia) ltac:(lia)) as Y. rewrite before_S in Y by lia.
    specialize (A4 k' Q). destruct (N.eq_dec i j) as [->|]; [|lia]. rewrite N.eqb_refl in EQ. unfold it_eq in EQ. cbn [it_frag it_off] in EQ.
    rewrite (proj2 (Nat.eqb_neq k k')) in EQ by lia. discriminate EQ.
Qed.

Lemma positions_any b fs i j : fs <> [] -> fits fs -> i <= lenN (text fs) -> j <= lenN (text fs) ->
  exists x y, next b fs (begin_of fs) i = Ok x /\ next b fs (begin_of fs) j = Ok y /\
    it_diff fs y x = (Z.of_N j - Z.of_N i)%Z /\ it_cmp x y = (i ?= j) /\ it_eq x y = (i =? j) /\
    (i = lenN (text fs) -> (x = end_of fs <-> ~ gap_at fs i)) /\
    (i <= j -> seek b fs x (Z.of_N j - Z.of_N i) = Ok y) /\
    (j < i -> exists z, seek b fs x (Z.of_N j - Z.of_N i) = Ok z /\ it_diff fs z y = 0%Z /\ (it_eq z y = true <-> ~ gap_at fs j)).
Proof.
  intros NF F L M. destruct (next_begin b fs i NF F L) as (x & Ex & P). destruct (next_begin b fs j NF F M) as (y & Ey & Q).
  exists x, y. split; [assumption|]. split; [assumption|]. split; [apply diff_ok; [apply Q|apply P]|].
  split; [now apply (fspot_cmp fs)|]. split; [now apply (fspot_eq fs)|].
  pose proof (fits_seek fs F) as FS. split; [|split].
  - intros E. rewrite <- it_eq_iff, (ends_at_eq fs i x NF P). unfold ends_at. split; [tauto|auto].
  - intros H. unfold seek. destruct (N.eq_dec i j) as [->|NE].
    + rewrite Z.sub_diag. cbn [Z.ltb Z.compare Z.opp Z.to_N]. change (0 =? - 2 ^ 63)%Z with false. rewrite Nat.add_comm.
      cbn [Nat.add seek_backward N.eqb]. f_equal. eapply fspot_unique; eauto.
    + rewrite (proj2 (Z.ltb_lt _ _)) by lia.
      destruct (seek_fspot b fs (length fs + 2) i x (Z.to_N (Z.of_N j - Z.of_N i)) (proj1 P) ltac:(lia) ltac:(lia) ltac:(lia)) as (z & -> & R).
      f_equal. replace (i + Z.to_N (Z.of_N j - Z.of_N i)) with j in R by lia. eapply fspot_unique; eauto.
  - intros H. unfold seek. rewrite (proj2 (Z.ltb_ge _ _)) by lia. change (- 2 ^ 63)%Z with (-9223372036854775808)%Z.
    rewrite (proj2 (Z.eqb_neq _ _)) by lia. pose proof P as ((A & _) & _).
    destruct (seek_backward_ok b fs (length fs + 2) i x (Z.to_N (- (Z.of_N j - Z.of_N i))) (proj1 P) ltac:(lia) ltac:(lia)) as (z & -> & R).
    replace (i - Z.to_N (- (Z.of_N j - Z.of_N i))) with j in R by lia. exists z. split; [reflexivity|].
    split; [rewrite (diff_ok fs j j z y (spot_wspot _ _ _ R) (proj1 Q)); lia|]. rewrite it_eq_iff. split.
    + intros -> G. destruct (fspot_gap fs j y Q G) as (X & Y & Z). destruct R as (_ & _ & R). lia.
    + intros G. apply (spot_unique fs j); [assumption|]. destruct Q as (W & D & E). 
      assert (I : it_off y < flen fs (it_frag y)) by (apply (fspot_inside fs j); [now split|lia|assumption]).
      destruct W as (W1 & W2 & W3). split; [assumption|]. split; [assumption|]. now left.
Qed.

Lemma inc_dec_any b fs i : fits fs -> i < lenN (text fs) ->
  exists it, next b fs (begin_of fs) i = Ok it /\
    (gap_at fs i -> it_inc b fs it = UB) /\
    (~ gap_at fs i -> exists it', it_inc b fs it = Ok it' /\ next b fs (begin_of fs) (i + 1) = Ok it' /\ it_dec b fs it' = Ok it).
Proof.
  intros F L. assert (NF : fs <> []) by (intros ->; unfold text in L; cbn in L; lia).
  destruct (next_begin b fs i NF F ltac:(lia)) as (it & E & P). exists it. split; [assumption|]. split; [intros G; now apply (fspot_inc_gap b fs i)|].
  intros G. destruct (fspot_inc b fs i it P L G) as (it' & I & Q). exists it'. split; [assumption|].
  destruct (next_begin b fs (i + 1) NF F ltac:(lia)) as (z & E' & R). rewrite (fspot_unique fs _ z it' R Q) in E'. split; [assumption|].
  pose proof (fspot_inside fs i it P L G) as O. destruct P as ((A & B & C) & _). destruct it as [k o]. cbn [it_frag it_off] in *.
  unfold it_inc in I. cbn [it_frag it_off] in I. rewrite (proj2 (N.eqb_neq o (flen fs k))), andb_false_r in I by lia. cbn [negb] in I.
  rewrite dassert_true in I. cbn [obind] in I. rewrite (proj2 (N.leb_gt _ _)) in I by lia.
  unfold it_dec. destruct (N.eqb_spec (o + 1) (flen fs k)) as [X|X].
  - destruct (Nat.eqb (S k) (length fs)); injection I as <-; cbn [it_frag it_off].
    + rewrite (proj2 (N.eqb_neq (flen fs k) 0)) by lia. rewrite andb_false_r. cbn [negb]. rewrite dassert_true. cbn [obind]. do 2 f_equal. lia.
    + cbn [Nat.eqb andb negb N.eqb]. rewrite dassert_true. cbn [obind]. rewrite (proj2 (N.eqb_neq (flen fs k) 0)) by lia. do 2 f_equal. lia.
  - injection I as <-. cbn [it_frag it_off]. rewrite (proj2 (N.eqb_neq (o + 1) 0)) by lia. rewrite andb_false_r. cbn [negb].
    rewrite dassert_true. cbn [obind]. do 2 f_equal. lia.
Qed.

Lemma substr_wrap_any b fs pos count : fits fs -> pos < lenN (text fs) -> count < npos -> size_mod <= pos + count -> substr b fs pos count = UB.
Proof.
  intros F L C W. assert (NF : fs <> []) by (intros ->; unfold text in L; cbn in L; lia).
  unfold substr. rewrite length_of_text, (proj2 (N.leb_gt _ _)) by assumption. pose proof (fits_seek fs F) as F'.
  assert (E : sz_add pos count = pos + count - size_mod).
  { unfold sz_add. rewrite size_mod_val in *. rewrite npos_val in C. symmetry. apply (N.mod_unique _ _ 1); lia. }
  rewrite npos_val in C. rewrite size_mod_val in *. rewrite E.
  rewrite npos_val, (proj2 (N.eqb_neq count _)), (proj2 (N.leb_gt _ _)) by lia. cbn [orb].
  destruct (next_begin b fs (pos + count - 18446744073709551616) NF F ltac:(lia)) as (e & -> & Q). cbn [obind].
  destruct (next_begin b fs pos NF F ltac:(lia)) as (it & -> & P). cbn [obind].
  rewrite (diff_ok fs _ _ e it (proj1 Q) (proj1 P)). rewrite (proj2 (Z.ltb_lt _ _)) by lia. reflexivity.
Qed.

Lemma copy_n_over b fs n : forall i it dest pos, fspot fs i it -> i + N.of_nat n <= lenN (text fs) -> pos <= lenN dest < pos + N.of_nat n ->
  ((exists g, i <= g <= i + (lenN dest - pos) /\ gap_at fs g) /\ copy_n n b fs it dest pos = misuse b) \/
  ((forall g, i <= g <= i + (lenN dest - pos) -> ~ gap_at fs g) /\ copy_n n b fs it dest pos = UB).
Proof.
  induction n as [|n IH]; intros i it dest pos P L D; cbn [copy_n]; [lia|].
  destruct (gap_dec fs i it P ltac:(lia)) as [Gi|Gi].
  { left. split; [exists i; split; [lia|assumption]|]. now apply (fspot_deref_gap b fs i). }
  destruct (fspot_deref b fs i it P ltac:(lia) Gi) as (c & Hc & ->). cbn [obind].
  destruct (N.eq_dec pos (lenN dest)) as [->|NE].
  { right. rewrite store_ub by lia. split; [|reflexivity]. intros g Hg. now replace g with i by lia. }
  rewrite store_ok by lia. cbn [obind]. destruct (fspot_inc b fs i it P ltac:(lia) Gi) as (it' & -> & P'). cbn [obind].
  change (takeN pos dest ++ c :: dropN (pos + 1) dest) with (overlay dest pos [c]). assert (LC : lenN [c] = 1) by reflexivity.
  assert (LO : lenN (overlay dest pos [c]) = lenN dest) by (apply overlay_length; lia).
  destruct (IH (i + 1) it' (overlay dest pos [c]) (pos + 1) P' ltac:(lia) ltac:(lia)) as [[(g & Hg & G) ->]|[G ->]]; rewrite LO in *; [left|right].
  - split; [|reflexivity]. exists g. split; [lia|assumption].
  - split; [|reflexivity]. intros g Hg. destruct (N.eq_dec g i) as [->|]; [assumption|]. apply G. lia.
Qed.
Lemma copy_over b fs dest count pos : fits fs -> pos < lenN (text fs) -> lenN dest < N.min count (lenN (text fs) - pos) ->
  ((exists g, pos <= g <= pos + lenN dest /\ gap_at fs g) -> copy b fs dest count pos = misuse b) /\
  ((forall g, pos <= g <= pos + lenN dest -> ~ gap_at fs g) -> copy b fs dest count pos = UB).
Proof.
  intros F L D. assert (NF : fs <> []) by (intros ->; unfold text in L; cbn in L; lia).
  unfold copy. rewrite length_of_text, (proj2 (N.leb_gt _ _)) by assumption.
  destruct (next_begin b fs pos NF F ltac:(lia)) as (it & -> & P). cbn [obind].
  destruct (copy_n_over b fs (N.to_nat (N.min count (lenN (text fs) - pos))) pos it dest 0 P ltac:(lia) ltac:(lia)) as [[(g & Hg & G) ->]|[G ->]];
    rewrite N.sub_0_r in *.
  - split; [intros _; now destruct b|]. intros K. destruct (K g Hg G).
  - split; [|reflexivity]. intros (g & Hg & X). destruct (G g Hg X).
Qed.
