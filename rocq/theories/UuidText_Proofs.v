From Coq Require Import Ascii String List. Import ListNotations.
From Verif Require Import Base BaseFacts Io_Model Io_Spec Hex_Model Hex_Spec Hex_Proofs Uuid_Model Uuid_Spec Uuid_Proofs UuidParse_Proofs UuidMake_Proofs Uuid_PropLemmas UuidText_Spec.
Open Scope N_scope. Open Scope list_scope.

Ltac ncmp := repeat match goal with
  | |- context [?a <=? ?b] => destruct (N.leb_spec a b)
  | |- context [?a <? ?b] => destruct (N.ltb_spec a b)
  | |- context [?a =? ?b] => destruct (N.eqb_spec a b)
  end; cbn [andb orb negb].

Lemma recase_cases up c : recase up c = c \/
  (up = true /\ 97 <= c <= 102 /\ recase up c = c - 32) \/ (up = false /\ 65 <= c <= 70 /\ recase up c = c + 32).
Proof. unfold recase. destruct up; ncmp; auto; right; [left|right]; repeat split; auto. Qed.

Lemma hex_upper c : 65 <= c <= 70 -> hex_value c = Some (c - 55).
Proof. intros H. assert (E : c = 65 \/ c = 66 \/ c = 67 \/ c = 68 \/ c = 69 \/ c = 70) by lia. decompose [or] E; subst; reflexivity. Qed.
Lemma hex_lower c : 97 <= c <= 102 -> hex_value c = Some (c - 87).
Proof. intros H. assert (E : c = 97 \/ c = 98 \/ c = 99 \/ c = 100 \/ c = 101 \/ c = 102) by lia. decompose [or] E; subst; reflexivity. Qed.

Lemma recase_value up c : hex_value (recase up c) = hex_value c.
Proof.
  destruct (recase_cases up c) as [->|[(_ & H & ->)|(_ & H & ->)]]; [reflexivity| |].
  - rewrite (hex_lower c H), hex_upper by lia. f_equal. lia.
  - rewrite (hex_upper c H), hex_lower by lia. f_equal. lia.
Qed.

Lemma hex_inv c v : hex_value c = Some v ->
  48 <= c <= 57 /\ v = c - 48 \/ 65 <= c <= 70 /\ v = c - 55 \/ 97 <= c <= 102 /\ v = c - 87.
Proof. unfold hex_value. ncmp; intros E; try discriminate; injection E as <-; lia. Qed.
Lemma hex_lt c v : hex_value c = Some v -> v < 16.
Proof. intros H. apply hex_inv in H. lia. Qed.

Lemma recase_digit up c v : hex_value c = Some v -> recase up c = digit up v.
Proof.
  intros H. unfold recase, digit, upper_digit, lower_digit.
  apply hex_inv in H. destruct H as [(H & ->)|[(H & ->)|(H & ->)]]; destruct up; ncmp; lia.
Qed.

Lemma recase_hex up c : is_hex (recase up c) <-> is_hex c.
Proof. unfold is_hex. now rewrite recase_value. Qed.

Lemma recase_delim up c d : ~ is_hex d -> (recase up c =? d) = (c =? d).
Proof.
  intros N. destruct (recase_cases up c) as [->|[(_ & H & E)|(_ & H & E)]]; [reflexivity| |];
    destruct (N.eqb_spec (recase up c) d) as [A|A], (N.eqb_spec c d) as [B|B]; try reflexivity; exfalso; apply N; subst d; unfold is_hex;
    rewrite ?recase_value, ?(hex_upper c H), ?(hex_lower c H); try discriminate; eauto.
Qed.

Lemma map_part up ds i n : map (recase up) (part ds i n) = part (map (recase up) ds) i n.
Proof. unfold part. now rewrite skipn_map, firstn_map. Qed.

Lemma recase_layout up f ds : map (recase up) (layout f ds) = layout f (map (recase up) ds).
Proof.
  destruct f; unfold layout, dashed; rewrite ?map_app, ?map_part; destruct up; reflexivity.
Qed.

Lemma denotes_recase up : forall bs ds, denotes ds bs -> map (recase up) ds = flat_map (pair_of up) bs.
Proof.
  induction bs as [|b bs IH]; intros ds (L & D).
  - destruct ds; [reflexivity|discriminate].
  - destruct ds as [|h [|l r]]; cbn [length] in L; try lia.
    destruct (D 0%nat b eq_refl) as (h' & l' & hv & lv & Eh & El & Vh & Vl & Eb). cbn in Eh, El. injection Eh as <-. injection El as <-.
    assert (Hh : hv < 16 /\ lv < 16).
    { split; [exact (hex_lt _ _ Vh)|exact (hex_lt _ _ Vl)]. }
    cbn [map flat_map]. rewrite (recase_digit up h hv Vh), (recase_digit up l lv Vl). unfold pair_of at 1.
    replace (Byte.to_N b / 16) with hv by (rewrite Eb; apply (N.div_unique _ 16 hv lv); lia).
    replace (Byte.to_N b mod 16) with lv by (rewrite Eb; apply (N.mod_unique _ 16 hv lv); lia).
    cbn [app]. f_equal. f_equal. apply IH. split; [lia|]. intros i c Hi.
    destruct (D (S i) c Hi) as (h2 & l2 & hv2 & lv2 & A & B & R).
    exists h2, l2, hv2, lv2. replace (2 * S i)%nat with (S (S (2 * i))) in A by lia. replace (2 * S i + 1)%nat with (S (S (2 * i + 1))) in B by lia.
    cbn in A, B. auto.
Qed.

Lemma digits_of_text up f s u : text_of f s u -> exists ds, s = layout f ds /\ length ds = 32%nat /\ uuid_digits up u = map (recase up) ds.
Proof.
  intros (U & ds & -> & D). exists ds. split; [reflexivity|]. split.
  - destruct D as [D _]. rewrite D. uuid_cases u U. reflexivity.
  - symmetry. exact (denotes_recase up _ _ D).
Qed.

Lemma convert_text m w up g f s u : text_of f s u -> exists ds, s = layout f ds /\ length ds = 32%nat /\
  to_string (Env m m) w u (letter up g) = Ok (layout g (map (recase up) ds)).
Proof.
  intros T. destruct (digits_of_text up f s u T) as (ds & E & L & D). exists ds. split; [exact E|]. split; [exact L|].
  rewrite (proj1 (canonical m w u up g (proj1 T))). unfold uuid_text. now rewrite D.
Qed.

Lemma convert m w w2 after s up f u up2 g : f <> FX -> checkable w s -> In 0 after ->
  uuid_from_string w after s (letter up f) = Ok u ->
  exists ds, s = layout f ds /\ length ds = 32%nat /\ to_string (Env m m) w2 u (letter up2 g) = Ok (layout g (map (recase up2) ds)).
Proof.
  intros NX L I E. pose proof (uuid_from_string_char w after s up f NX L I) as C. rewrite E in C. now apply convert_text.
Qed.

Lemma canonicalises m w w2 after s up f u up2 : f <> FX -> checkable w s -> In 0 after ->
  uuid_from_string w after s (letter up f) = Ok u ->
  to_string (Env m m) w2 u (letter up2 f) = Ok (map (recase up2) s).
Proof.
  intros NX L I E. destruct (convert m w w2 after s up f u up2 f NX L I E) as (ds & -> & _ & ->). now rewrite recase_layout.
Qed.

Lemma canonicalises_X m w after s up up2 : In 0 after -> well_formed FX s ->
  exists u, uuid_from_string w after s (letter up FX) = Ok u /\ to_string (Env m m) w u (letter up2 FX) = Ok (map (recase up2) s).
Proof.
  intros I W. apply text_of_well_formed in W. destruct W as (u & T). exists u. split; [now apply X_accepts_layout|].
  destruct (convert_text m w up2 FX FX s u T) as (ds & -> & _ & ->). now rewrite recase_layout.
Qed.

(** ** Case does not matter to the parser *)

Lemma deref_map up s p : deref (map (recase up) s) p = let! c := deref s p in Ok (recase up c).
Proof. unfold deref. rewrite nth_error_map. destruct (nth_error s (N.to_nat p)); reflexivity. Qed.

Lemma bad_delim_recase up s ds : Forall (fun d => ~ is_hex (fst d)) ds ->
  any_bad_delimiter (map (recase up) s) ds = any_bad_delimiter s ds.
Proof.
  induction 1 as [|[v p] r H _ IH]; [reflexivity|]. cbn [any_bad_delimiter]. rewrite deref_map.
  destruct (deref s p) as [c| | | |]; cbn [obind]; try reflexivity. cbn [fst] in H.
  rewrite (N.eqb_sym v (recase up c)), (N.eqb_sym v c), recase_delim by exact H. now rewrite IH.
Qed.

Lemma valid_recase up f s : f <> FX -> is_a_valid_uuid_string (the_fmt true f) (map (recase up) s) = is_a_valid_uuid_string (the_fmt true f) s.
Proof.
  intros NX. unfold is_a_valid_uuid_string. replace (lenN (map (recase up) s)) with (lenN s) by (unfold lenN; now rewrite map_length).
  destruct (negb _); [reflexivity|]. rewrite !deref_map. destruct (deref s 0) as [a| | | |]; cbn [obind]; try reflexivity.
  destruct (deref s (lenN s - 1)) as [b| | | |]; cbn [obind]; try reflexivity.
  assert (O : is_opening (the_fmt true f) (recase up a) = is_opening (the_fmt true f) a).
  { unfold is_opening. destruct f; try reflexivity; cbn [the_fmt fmt_B fmt_P f_open];
      match goal with |- context [_ || (?d =? _)] => rewrite ?(N.eqb_sym d), recase_delim; [reflexivity|vm_compute; auto] | _ => idtac end. }
  assert (C : is_closing (the_fmt true f) (recase up b) = is_closing (the_fmt true f) b).
  { unfold is_closing. destruct f; try reflexivity; cbn [the_fmt fmt_B fmt_P f_close];
      match goal with |- context [_ || (?d =? _)] => rewrite ?(N.eqb_sym d), recase_delim; [reflexivity|vm_compute; auto] | _ => idtac end. }
  rewrite O, C, bad_delim_recase; [reflexivity|].
  destruct f; cbn [the_fmt fmt_N fmt_D fmt_B fmt_P f_delims]; [| | | |congruence]; repeat constructor; vm_compute; auto.
Qed.

Lemma checkable_recase w up s : checkable w s -> checkable w (map (recase up) s).
Proof.
  intros H. unfold checkable in *. rewrite Forall_map. eapply Forall_impl; [|exact H]. intros c Hc. cbn beta.
  destruct (recase_cases up c) as [->|[(_ & H' & ->)|(_ & H' & ->)]]; [exact Hc|lia..].
Qed.

Lemma well_formed_recase up f s : f <> FX -> (well_formed f (map (recase up) s) <-> well_formed f s).
Proof.
  intros NX. split.
  - intros (ds & E & L & F).
    assert (V : is_a_valid_uuid_string (the_fmt true f) s = Ok true).
    { rewrite <- (valid_recase up f s NX), E. now apply valid_layout. }
    destruct (valid_is_layout f s NX V) as (es & Le & ->). exists es. split; [reflexivity|]. split; [exact Le|].
    rewrite recase_layout in E. apply layout_inj in E; [|now rewrite map_length|exact L]. subst ds. rewrite Forall_map in F.
    eapply Forall_impl; [|exact F]. intros c. apply recase_hex.
  - intros (ds & -> & L & F). exists (map (recase up) ds). rewrite recase_layout. split; [reflexivity|]. split; [now rewrite map_length|].
    rewrite Forall_map. eapply Forall_impl; [|exact F]. intros c. apply recase_hex.
Qed.

Lemma text_of_recase up f s u : text_of f s u -> text_of f (map (recase up) s) u.
Proof.
  intros T. pose proof T as (U & _). destruct (digits_of_text up f s u T) as (ds & -> & L & D).
  split; [exact U|]. exists (map (recase up) ds). split; [now rewrite recase_layout|]. rewrite <- D. apply uuid_digits_denotes.
Qed.

Lemma text_of_unique f s u v : text_of f s u -> text_of f s v -> u = v.
Proof.
  intros T1 T2. destruct (digits_of_text true f s u T1) as (ds & -> & L & _).
  destruct (text_of_decode f ds u L T1) as (-> & _). destruct (text_of_decode f ds v L T2) as (-> & _). reflexivity.
Qed.

Lemma case_insensitive w after s up b f c : f <> FX -> checkable w s -> In 0 after ->
  uuid_from_string w after (map (recase b) s) (letter c f) = uuid_from_string w after s (letter up f).
Proof.
  intros NX L I. pose proof (uuid_from_string_char w after s up f NX L I) as A.
  pose proof (uuid_from_string_char w after (map (recase b) s) c f NX (checkable_recase w b s L) I) as B.
  destruct (uuid_from_string w after s (letter up f)) as [u|e| | |]; try contradiction;
  destruct (uuid_from_string w after (map (recase b) s) (letter c f)) as [v|e'| | |]; try contradiction.
  - f_equal. apply (text_of_unique f (map (recase b) s)); [exact B|]. now apply text_of_recase.
  - exfalso. apply (proj2 B). apply well_formed_recase; [exact NX|]. apply text_of_well_formed. eauto.
  - exfalso. apply (proj2 A). apply (well_formed_recase b); [exact NX|]. apply text_of_well_formed. eauto.
  - f_equal. destruct A, B. congruence.
Qed.

(** ** Format X, which accepts any text of 68 characters with 32 digits *)

Lemma bare_xdigits s : bare_digits s = xdigits s.
Proof.
  induction s as [|c r IH]; [reflexivity|]. cbn [bare_digits xdigits]. rewrite IH. unfold hexb. destruct (hex_value c); reflexivity.
Qed.
Lemma recase_0 up c : (recase up c =? 48) = (c =? 48).
Proof. destruct (recase_cases up c) as [->|[(_ & H & ->)|(_ & H & ->)]]; [reflexivity| |]; ncmp; auto; lia. Qed.
Lemma bare_recase up s : bare_digits (map (recase up) s) = map (recase up) (bare_digits s).
Proof.
  induction s as [|c r IH]; [reflexivity|]. cbn [bare_digits map]. rewrite map_app, IH, recase_value. f_equal.
  destruct (hex_value c); [|reflexivity]. destruct r as [|d q]; [reflexivity|]. cbn [map].
  rewrite recase_0, recase_delim by (vm_compute; auto). destruct (_ && _); reflexivity.
Qed.
Lemma digits_text_of ds : List.length ds = 32%nat -> Forall is_hex ds -> exists u, text_of FN ds u /\ forall w after, In 0 after -> unsafe_uuid_from_digits w after ds = Ok u.
Proof.
  intros L F. assert (W : well_formed FN ds) by (exists ds; auto).
  apply text_of_well_formed in W. destruct W as (u & T). exists u. split; [exact T|]. intros w after I.
  destruct (text_of_decode FN ds u L T) as (-> & _). now apply from_digits.
Qed.
Lemma X_accepted w after s up u : checkable w s -> In 0 after -> uuid_from_string w after s (letter up FX) = Ok u ->
  lenN s = 68 /\ List.length (bare_digits s) = 32%nat /\ text_of FN (bare_digits s) u.
Proof.
  intros L I E. rewrite X_char in E by exact L. destruct (N.eqb_spec (lenN s) 68) as [S|S]; [|discriminate]. cbn [negb] in E.
  destruct (ends_in_0 s); [discriminate|]. rewrite <- xdigits_count, <- bare_xdigits in E.
  destruct (N.compare_spec (lenN (bare_digits s)) 32) as [C|C|C]; try discriminate.
  assert (D : List.length (bare_digits s) = 32%nat) by (unfold lenN in C; lia).
  destruct (digits_text_of (bare_digits s) D) as (v & T & F); [rewrite bare_xdigits; apply xdigits_hex|].
  rewrite F in E by exact I. injection E as ->. auto.
Qed.
Lemma convert_X m w w2 after s up u up2 g : checkable w s -> In 0 after -> uuid_from_string w after s (letter up FX) = Ok u ->
  List.length (bare_digits s) = 32%nat /\ to_string (Env m m) w2 u (letter up2 g) = Ok (layout g (map (recase up2) (bare_digits s))).
Proof.
  intros L I E. destruct (X_accepted w after s up u L I E) as (_ & D & T). split; [exact D|].
  destruct (convert_text m w2 up2 g FN _ u T) as (ds & H & _ & ->). cbn [layout] in H. now rewrite H.
Qed.
Lemma ends_in_0_recase up s : ends_in_0 (map (recase up) s) = ends_in_0 s.
Proof. unfold ends_in_0. rewrite <- map_rev. destruct (rev s) as [|c r]; [reflexivity|]. apply recase_0. Qed.
Lemma case_insensitive_X w after s up b c : checkable w s -> In 0 after ->
  uuid_from_string w after (map (recase b) s) (letter c FX) = uuid_from_string w after s (letter up FX).
Proof.
  intros L I. rewrite !X_char by (try apply checkable_recase; exact L). rewrite ends_in_0_recase.
  replace (lenN (map (recase b) s)) with (lenN s) by (unfold lenN; now rewrite map_length).
  destruct (negb _); [reflexivity|]. destruct (ends_in_0 s); [reflexivity|].
  rewrite <- !xdigits_count, <- !bare_xdigits, bare_recase.
  replace (lenN (map (recase b) (bare_digits s))) with (lenN (bare_digits s)) by (unfold lenN; now rewrite map_length).
  destruct (N.compare_spec (lenN (bare_digits s)) 32) as [C|C|C]; try reflexivity.
  assert (D : List.length (bare_digits s) = 32%nat) by (unfold lenN in C; lia).
  destruct (digits_text_of (bare_digits s) D) as (v & T & F); [rewrite bare_xdigits; apply xdigits_hex|].
  destruct (digits_text_of (map (recase b) (bare_digits s))) as (v' & T' & F').
  - now rewrite map_length.
  - rewrite <- bare_recase, bare_xdigits. apply xdigits_hex.
  - rewrite F, F' by exact I. f_equal. apply (text_of_unique FN (map (recase b) (bare_digits s))); [exact T'|]. now apply text_of_recase.
Qed.
Lemma case_insensitive_all w after s up b f c : checkable w s -> In 0 after ->
  uuid_from_string w after (map (recase b) s) (letter c f) = uuid_from_string w after s (letter up f).
Proof.
  intros L I. destruct f; [apply case_insensitive; congruence..|now apply case_insensitive_X].
Qed.
Lemma X_text_refuted : exists s u, lenN s = 68 /\ (forall w after up, In 0 after -> uuid_from_string w after s (letter up FX) = Ok u) /\
  forall m w up2, exists t, to_string (Env m m) w u (letter up2 FX) = Ok t /\ map (recase up2) t <> map (recase up2) s.
Proof.
  exists (repeat 65 32 ++ repeat 33 36), (repeat xaa 16). split; [reflexivity|].
  assert (L1 : latin1 (repeat 65 32 ++ repeat 33 36)).
  { apply Forall_app. split; apply Forall_forall; intros x I; apply repeat_spec in I; subst; reflexivity. }
  split.
  - intros w after up I. rewrite X_char by now apply latin1_checkable.
    change (unsafe_uuid_from_digits w after (repeat 65 32) = Ok (repeat xaa 16)).
    rewrite from_digits; auto. apply Forall_forall. intros x H. apply repeat_spec in H. subst. discriminate.
  - intros m w up2. eexists. split; [apply canonical; reflexivity|]. intros E'. apply (f_equal (fun l => nth_error l 0)) in E'. destruct up2; discriminate.
Qed.

(** ** Order *)

Fixpoint lcmp (a b : list N) : comparison :=
  match a, b with
  | [], [] => Eq | [], _ => Lt | _, [] => Gt
  | x :: r, y :: q => match N.compare x y with Eq => lcmp r q | c => c end
  end.

Lemma lcmp_before a : forall b, List.length a = List.length b -> (lcmp a b = Lt <-> text_before a b).
Proof.
  induction a as [|x r IH]; intros [|y q] L; cbn [List.length] in L; try lia.
  - split; [discriminate|]. intros (i & p & q & _ & A & _). destruct i; discriminate.
  - cbn [lcmp]. specialize (IH q ltac:(lia)). destruct (N.compare_spec x y) as [->|H|H].
    + rewrite IH. split.
      * intros (i & p & o & F & A & B & C). exists (S i), p, o. cbn. rewrite F. auto.
      * intros (i & p & o & F & A & B & C). destruct i as [|i]; cbn in A, B; [injection A as <-; injection B as <-; lia|].
        exists i, p, o. cbn in F. injection F as F. auto.
    + split; [|reflexivity]. intros _. exists 0%nat, x, y. auto.
    + split; [discriminate|]. intros (i & p & o & F & A & B & C). destruct i as [|i]; cbn in A, B, F.
      * injection A as <-. injection B as <-. lia.
      * injection F as F _. lia.
Qed.

Definition then_ (a b : comparison) : comparison := match a with Eq => b | _ => a end.

Lemma lcmp_app a : forall b c d, List.length a = List.length c -> lcmp (a ++ b) (c ++ d) = then_ (lcmp a c) (lcmp b d).
Proof.
  induction a as [|x r IH]; intros b [|y q] d L; cbn [List.length] in L; try lia; [reflexivity|].
  cbn [app lcmp]. destruct (N.compare x y); try reflexivity. apply IH. lia.
Qed.

Lemma lcmp_layout f ds es : List.length ds = 32%nat -> List.length es = 32%nat -> lcmp (layout f ds) (layout f es) = lcmp ds es.
Proof.
  intros L M. cases32 ds L. cases32 es M. 
  destruct f; [reflexivity| | | |]; lazy -[N.compare]; rewrite ?N.compare_refl; reflexivity.
Qed.

Lemma digit_compare up x y : x < 16 -> y < 16 -> N.compare (digit up x) (digit up y) = N.compare x y.
Proof.
  intros X Y. unfold digit, upper_digit, lower_digit.
  destruct up; destruct (N.ltb_spec x 10), (N.ltb_spec y 10);
    destruct (N.compare_spec x y); try (apply N.compare_eq_iff; lia); try (apply N.compare_lt_iff; lia); try (apply N.compare_gt_iff; lia).
Qed.

Lemma divmod_compare x y : then_ (N.compare (x / 16) (y / 16)) (N.compare (x mod 16) (y mod 16)) = N.compare x y.
Proof.
  pose proof (N.div_mod x 16 ltac:(lia)) as A. pose proof (N.div_mod y 16 ltac:(lia)) as B.
  pose proof (N.mod_lt x 16 ltac:(lia)) as C. pose proof (N.mod_lt y 16 ltac:(lia)) as D.
  set (a := x / 16) in *. set (b := y / 16) in *. set (c := x mod 16) in *. set (d := y mod 16) in *. clearbody a b c d. subst x y.
  destruct (N.compare_spec a b) as [->|H|H]; cbn [then_].
  - destruct (N.compare_spec c d) as [->|H|H]; symmetry; [apply N.compare_refl|apply N.compare_lt_iff; lia|apply N.compare_gt_iff; lia].
  - symmetry. apply N.compare_lt_iff. lia.
  - symmetry. apply N.compare_gt_iff. lia.
Qed.

Lemma pairs_compare up a : forall b, List.length a = List.length b ->
  lcmp (flat_map (pair_of up) a) (flat_map (pair_of up) b) = uuid_compare a b.
Proof.
  induction a as [|x r IH]; intros [|y q] L; cbn [List.length] in L; try lia; [reflexivity|].
  cbn [flat_map]. rewrite lcmp_app by reflexivity. rewrite IH by lia. cbn [uuid_compare].
  assert (P : lcmp (pair_of up x) (pair_of up y) = N.compare (Byte.to_N x) (Byte.to_N y)).
  { pose proof (to_N_lt x). pose proof (to_N_lt y).
    unfold pair_of. cbn [lcmp]. rewrite !digit_compare by (first [apply N.mod_lt; lia|apply N.div_lt_upper_bound; lia]).
    rewrite <- (divmod_compare (Byte.to_N x)). unfold then_. destruct (N.compare (Byte.to_N x / 16) (Byte.to_N y / 16)); try reflexivity.
    destruct (N.compare (Byte.to_N x mod 16) (Byte.to_N y mod 16)); reflexivity. }
  rewrite P. unfold then_. destruct (N.compare _ _); reflexivity.
Qed.

Lemma text_order_length u : List.length (text_order u) = 16%nat.
Proof. unfold text_order. now rewrite map_length. Qed.

Lemma text_compare up f u v : lcmp (uuid_text up f u) (uuid_text up f v) = uuid_compare (text_order u) (text_order v).
Proof.
  unfold uuid_text. rewrite lcmp_layout by apply uuid_digits_length. apply (pairs_compare up). now rewrite !text_order_length.
Qed.

Lemma text_before_iff up f u v : text_before (uuid_text up f u) (uuid_text up f v) <-> lex_before (text_order u) (text_order v).
Proof.
  rewrite <- compare_lt by (now rewrite !text_order_length). rewrite <- (text_compare up f).
  symmetry. apply lcmp_before. unfold uuid_text.
  pose proof (layout_length f _ (uuid_digits_length up u)) as A. pose proof (layout_length f _ (uuid_digits_length up v)) as B.
  unfold lenN in A, B. lia.
Qed.

Lemma shown_before m w u v up f s t : is_uuid u -> is_uuid v ->
  to_string (Env m m) w u (letter up f) = Ok s -> to_string (Env m m) w v (letter up f) = Ok t ->
  (text_before s t <-> lex_before (text_order u) (text_order v)).
Proof.
  intros U V. rewrite (proj1 (canonical m w u up f U)), (proj1 (canonical m w v up f V)). intros [= <-] [= <-]. apply text_before_iff.
Qed.

Lemma uuid_compare_app a : forall b c, uuid_compare (a ++ b) (a ++ c) = uuid_compare b c.
Proof. induction a; intros; cbn [app uuid_compare]; [reflexivity|]. now rewrite N.compare_refl. Qed.

Lemma same_fields u v : is_uuid u -> is_uuid v -> firstn 8 u = firstn 8 v ->
  uuid_compare (text_order u) (text_order v) = uuid_compare u v.
Proof.
  intros U V E. rewrite <- (firstn_skipn 8 u) at 2. rewrite <- (firstn_skipn 8 v) at 2. rewrite E, uuid_compare_app.
  unfold is_uuid in *. do 16 (destruct u as [|? u]; [discriminate|]). destruct u; [|discriminate].
  do 16 (destruct v as [|? v]; [discriminate|]). destruct v; [|discriminate].
  cbn [firstn] in E. injection E as -> -> -> -> -> -> -> ->.
  match goal with |- uuid_compare ?x ?y = uuid_compare ?a ?b =>
    let x' := eval cbv in x in let y' := eval cbv in y in let a' := eval cbv in a in let b' := eval cbv in b in
    change (uuid_compare x' y' = uuid_compare a' b') end.
  cbn [uuid_compare]. rewrite !N.compare_refl. reflexivity.
Qed.

Lemma same_fields_shown m w u v up f s t : is_uuid u -> is_uuid v -> firstn 8 u = firstn 8 v ->
  to_string (Env m m) w u (letter up f) = Ok s -> to_string (Env m m) w v (letter up f) = Ok t ->
  (uuid_compare u v = Lt <-> text_before s t).
Proof.
  intros U V E S T. rewrite (shown_before m w u v up f s t U V S T), <- compare_lt by (now rewrite !text_order_length).
  now rewrite same_fields.
Qed.

Lemma reversed m w up f : exists u v s t, is_uuid u /\ is_uuid v /\ uuid_compare u v = Lt /\
  to_string (Env m m) w u (letter up f) = Ok s /\ to_string (Env m m) w v (letter up f) = Ok t /\ text_before t s.
Proof.
  exists (x00 :: x01 :: repeat x00 14), (x01 :: repeat x00 15).
  do 2 eexists. split; [reflexivity|]. split; [reflexivity|]. split; [reflexivity|].
  rewrite !(fun u U => proj1 (canonical m w u up f U)) by reflexivity. split; [reflexivity|]. split; [reflexivity|].
  apply text_before_iff, compare_lt; reflexivity.
Qed.
