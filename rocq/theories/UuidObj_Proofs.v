(** Proofs for C106. *)
From Coq Require Import Ascii String List. Import ListNotations.
From Verif Require Import Base BaseFacts Io_Model Hex_Model Hex_Spec Uuid_Model Uuid_Spec
  Uuid_Proofs UuidParse_Proofs UuidMake_Proofs Uuid_PropLemmas UuidObj_Model UuidObj_Spec.
Local Open Scope N_scope. Local Open Scope list_scope.

Lemma objects_agree w after s up f : up = true \/ f <> FX -> try_make_uuid_with w after s (object_of up f) = try_make_uuid w after s (letter up f).
Proof.
  intros H. unfold try_make_uuid_with, try_make_uuid. rewrite parse_format_letter.
  destruct f, up; try reflexivity. destruct H as [H|H]; [discriminate|congruence].
Qed.
Definition first_last (s : list N) : bool := (nth 0 s 0 =? 123) && (nth (List.length s - 1) s 0 =? 125).
Lemma valid_x s : is_a_valid_uuid_string fmt_x s = Ok ((lenN s =? 68) && first_last s).
Proof.
  unfold is_a_valid_uuid_string. change (f_size fmt_x) with 68. destruct (N.eqb_spec (lenN s) 68) as [E|]; cbn [negb andb]; [|reflexivity].
  assert (D : forall p, p < lenN s -> deref s p = Ok (nth (N.to_nat p) s 0)).
  { intros p L. unfold deref. rewrite (nth_error_nth' s 0); [reflexivity|]. unfold lenN in L. lia. }
  rewrite !D by lia. cbn [obind]. replace (N.to_nat (lenN s - 1)) with (List.length s - 1)%nat by (unfold lenN; lia).
  change (N.to_nat 0) with 0%nat. unfold first_last, is_opening, is_closing. change (f_open fmt_x) with 123. change (f_close fmt_x) with 125.
  change (123 =? 0) with false. change (125 =? 0) with false. cbn [orb]. rewrite (N.eqb_sym 123), (N.eqb_sym 125).
  destruct (nth 0 s 0 =? 123), (nth (List.length s - 1) s 0 =? 125); reflexivity.
Qed.
Lemma first_last_braced s : (1 < List.length s)%nat -> (first_last s = true <-> braced s).
Proof.
  intros L. unfold first_last, braced. rewrite Bool.andb_true_iff, !N.eqb_eq. split.
  - intros [A B]. destruct s as [|c r]; [cbn in L; lia|]. cbn [nth] in A. subst c.
    destruct (rev r) as [|e t] eqn:R; [apply (f_equal (@List.length N)) in R; rewrite rev_length in R; cbn in *; lia|].
    apply (f_equal (@rev N)) in R. rewrite rev_involutive in R. cbn [rev] in R. exists (rev t). subst r.
    cbn [List.length] in B. rewrite app_length in B. cbn [List.length] in B.
    replace (S (List.length (rev t) + 1) - 1)%nat with (S (List.length (rev t))) in B by lia.
    cbn [nth] in B. rewrite app_nth2, Nat.sub_diag in B by lia. cbn in B. subst e. reflexivity.
  - intros (t & ->). split; [reflexivity|]. change (txt "{") with [123]. change (txt "}") with [125]. cbn [app List.length]. rewrite app_length. cbn [List.length].
    replace (S (List.length t + 1) - 1)%nat with (S (List.length t)) by lia. cbn [nth]. rewrite app_nth2, Nat.sub_diag by lia. reflexivity.
Qed.
Lemma x_agrees w after s : braced s \/ lenN s <> 68 -> try_make_uuid_with w after s ox = try_make_uuid w after s (letter false FX).
Proof.
  intros H. unfold try_make_uuid_with, try_make_uuid. rewrite parse_format_letter. cbn [object_format the_fmt].
  unfold try_make_uuid_fmt. rewrite valid_x, valid_X. destruct (N.eqb_spec (lenN s) 68) as [E|E]; cbn [andb]; [|reflexivity].
  destruct H as [H|H]; [|congruence]. apply first_last_braced in H; [|unfold lenN in E; lia]. now rewrite H.
Qed.
Lemma x_rejects w after s : ~ braced s -> try_make_uuid_with w after s ox = Ok (RErr invalid_uuid_format).
Proof.
  intros H. unfold try_make_uuid_with. cbn [object_format]. unfold try_make_uuid_fmt. rewrite valid_x.
  destruct (N.eqb_spec (lenN s) 68) as [E|E]; cbn [andb]; [|reflexivity].
  destruct (first_last s) eqn:F; [|reflexivity]. apply first_last_braced in F; [contradiction|unfold lenN in E; lia].
Qed.
Lemma closes (a r : list N) : (exists q, r = q ++ txt "}") -> exists q, a ++ r = q ++ txt "}".
Proof. intros (q & ->). exists (a ++ q). now rewrite app_assoc. Qed.
Lemma text_braced up u : braced (uuid_text up FX u).
Proof.
  unfold uuid_text, layout. generalize (uuid_digits up u). intros ds.
  assert (C : forall r, (exists q, r = q ++ txt "}") -> braced (txt "{0x" ++ r)).
  { intros r (q & ->). exists (txt "0x" ++ q). reflexivity. }
  apply C. repeat apply closes. exists (txt "}"). reflexivity.
Qed.
Lemma constructed w after s up f u : uuid_from_string w after s (letter up f) = Ok u -> try_make_uuid w after s (letter up f) = Ok (RVal u).
Proof.
  unfold uuid_from_string, try_make_uuid. rewrite parse_format_letter. unfold uuid_from_fmt, try_make_uuid_fmt.
  destruct (is_a_valid_uuid_string _ s) as [[]| | | |]; cbn [obind negb]; try discriminate.
  destruct (strip_non_hex _ _ _ _) as [d| | | |]; cbn [obind]; try discriminate. destruct (negb _); [discriminate|]. now intros ->.
Qed.
Lemma object_roundtrip m w after u up up2 f : is_uuid u -> In 0 after ->
  exists s, to_string (Env m m) w u (letter up f) = Ok s /\ try_make_uuid_with w after s (object_of up2 f) = Ok (RVal u).
Proof.
  intros U I. destruct (roundtrip_partial m w after u up f U I) as (s & P & R). exists s. split; [exact P|].
  assert (T : try_make_uuid w after s (letter up2 f) = Ok (RVal u)).
  { apply constructed. unfold uuid_from_string in *. rewrite parse_format_letter in *. exact R. }
  destruct up2; [now rewrite objects_agree by auto|]. destruct f; try (rewrite objects_agree by (right; discriminate); exact T).
  rewrite x_agrees; [exact T|]. left. rewrite (to_string_char m w u up FX U) in P. injection P as <-. apply text_braced.
Qed.
Lemma x_refuted : exists s u, lenN s = 68 /\ forall w after, In 0 after ->
  try_make_uuid w after s (letter false FX) = Ok (RVal u) /\ try_make_uuid_with w after s ox = Ok (RErr invalid_uuid_format).
Proof.
  exists (txt "(0x00112233,0x4455,0x6677,(0x88,0x99,0xaa,0xbb,0xcc,0xdd,0xee,0xff))"). eexists. split; [reflexivity|]. intros w after I. split.
  - apply constructed. rewrite X_char by (repeat constructor). vm_compute (lenN _). cbn [N.eqb Pos.eqb negb].
    match goal with |- context [xdigits ?t] => let y := eval vm_compute in (xdigits t) in change (xdigits t) with y; change (ends_in_0 t) with false; change (digit_positions t) with 32 end.
    cbn [N.compare Pos.compare Pos.compare_cont]. rewrite from_digits; [reflexivity|exact I|reflexivity|repeat constructor; discriminate].
  - apply x_rejects. intros (t & E). discriminate.
Qed.
