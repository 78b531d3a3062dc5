(** Lemmas behind the theorems of [Uuid_Props] that combine several proof files. *)
From Verif Require Import Base BaseFacts Io_Model Hex_Model Hex_Spec Hex_Proofs
  Uuid_Model Uuid_Spec Uuid_Proofs UuidParse_Proofs UuidMake_Proofs.
From Coq Require Import Ascii String List. Import ListNotations.
Open Scope N_scope. Open Scope list_scope.

Lemma roundtrip_partial m w after u up f : is_uuid u -> In 0 after ->
  exists s, to_string (Env m m) w u (letter up f) = Ok s /\ uuid_from_string w after s (letter up f) = Ok u.
Proof.
  intros U I. exists (uuid_text up f u). split; [now apply to_string_char|].
  eapply (roundtrip m); eauto. now apply to_string_char.
Qed.

Lemma roundtrip_refuted m w u up f : is_uuid u ->
  exists s, to_string (Env m m) w u (letter up f) = Ok s /\ uuid_from_string w [] s (letter up f) = UB.
Proof.
  intros U. exists (uuid_text up f u). split; [now apply to_string_char|].
  eapply (roundtrip_standard_ub m); eauto. now apply to_string_char.
Qed.

Lemma canonical m w u up f : is_uuid u ->
  to_string (Env m m) w u (letter up f) = Ok (uuid_text up f u) /\
  lenN (uuid_text up f u) = format_length f.
Proof. intros U. split; [now apply to_string_char|apply uuid_text_length]. Qed.

Lemma canonical_inj m w u v up f s : is_uuid u -> is_uuid v ->
  to_string (Env m m) w u (letter up f) = Ok s -> to_string (Env m m) w v (letter up f) = Ok s -> u = v.
Proof.
  intros U V A B. rewrite to_string_char in A, B by assumption. apply (uuid_text_inj up f); auto. congruence.
Qed.

Lemma wide_refuted : exists s, lenN s = 32 /\ forall after,
  uuid_from_string wide after s (letter true FN) = UB /\ try_make_uuid wide after s (letter true FN) = UB.
Proof. exists (repeat 0x4E2D 32). split; [reflexivity|]. intros after. split; reflexivity. Qed.

Lemma ends_iff s : ends_in_0 s = true <-> ends_with_0 s.
Proof.
  unfold ends_in_0. split.
  - destruct (rev s) as [|c r] eqn:E; [discriminate|]. intros H. apply N.eqb_eq in H. subst.
    exists (rev r). rewrite <- (rev_involutive s), E. reflexivity.
  - intros [r ->]. rewrite rev_app_distr. reflexivity.
Qed.

Lemma X_overflow_refuted : exists s, lenN s = 68 /\ latin1 s /\
  (forall w after, uuid_from_string w after s (letter true FX) = UB) /\ ~ ends_with_0 s /\ 32 < digit_positions s.
Proof.
  exists (repeat 65 68). split; [reflexivity|]. assert (L : latin1 (repeat 65 68)).
  { apply Forall_forall. intros x I. apply repeat_spec in I. subst. reflexivity. }
  split; [assumption|]. split; [intros w after; rewrite X_char by (now apply latin1_checkable); reflexivity|].
  split; [|reflexivity]. rewrite <- ends_iff. vm_compute. discriminate.
Qed.

Lemma X_overread_refuted : exists s, lenN s = 68 /\ latin1 s /\
  (forall w after, uuid_from_string w after s (letter true FX) = UB) /\ ends_with_0 s /\ digit_positions s <= 32.
Proof.
  exists (repeat 45 67 ++ [48]). split; [reflexivity|]. assert (L : latin1 (repeat 45 67 ++ [48])).
  { apply Forall_app. split; [|repeat constructor].
    apply Forall_forall. intros x I. apply repeat_spec in I. subst. reflexivity. }
  split; [assumption|]. split; [intros w after; rewrite X_char by (now apply latin1_checkable); reflexivity|].
  split; [now exists (repeat 45 67)|vm_compute; discriminate].
Qed.

Lemma X_safe_partial w after s up : checkable w s -> lenN s = 68 -> In 0 after ->
  (uuid_from_string w after s (letter up FX) = UB <-> ends_with_0 s \/ 32 < digit_positions s) /\
  match uuid_from_string w after s (letter up FX) with
  | Ok u => is_uuid u /\ digit_positions s = 32
  | Throw e => e = invalid_argument /\ digit_positions s < 32
  | UB => True
  | _ => False
  end.
Proof.
  intros L1 L I. rewrite X_char by assumption. rewrite L. cbn [N.eqb Pos.eqb negb].
  rewrite <- ends_iff. destruct (ends_in_0 s) eqn:E; [tauto|].
  destruct (N.compare_spec (digit_positions s) 32) as [C|C|C].
  - assert (LX : length (xdigits s) = 32%nat).
    { rewrite <- xdigits_count in C. unfold lenN in C. lia. }
    pose proof (xdigits_hex s) as HX. rewrite from_digits by assumption.
    split; [|split; [|assumption]].
    + split; [discriminate|]. intros [|]; [discriminate|lia].
    + apply format_text_order. rewrite decode_length, LX. reflexivity.
  - split; [|auto]. split; [discriminate|]. intros [|]; [discriminate|lia].
  - split; [|trivial]. split; auto.
Qed.


Lemma X_accepts_refuted : exists s u, lenN s = 68 /\ ~ well_formed FX s /\ forall w after, In 0 after ->
  uuid_from_string w after s (letter true FX) = Ok u.
Proof.
  exists (repeat 65 32 ++ repeat 33 36), (repeat xaa 16). split; [reflexivity|].
  assert (L : latin1 (repeat 65 32 ++ repeat 33 36)).
  { apply Forall_app. split; apply Forall_forall; intros x I; apply repeat_spec in I; subst; reflexivity. }
  split.
  - intros (ds & E & _). apply (f_equal (fun l => nth_error l 0)) in E. discriminate.
  - intros w after I. rewrite X_char by (now apply latin1_checkable).
    change (unsafe_uuid_from_digits w after (repeat 65 32) = Ok (repeat xaa 16)).
    rewrite from_digits; auto. apply Forall_forall. intros x H. apply repeat_spec in H. subst. discriminate.
Qed.

Lemma X_accepts_layout w after s up u : In 0 after -> text_of FX s u ->
  uuid_from_string w after s (letter up FX) = Ok u.
Proof.
  intros I T. pose proof T as (U & ds & -> & D).
  assert (L : length ds = 32%nat). { destruct D as [D _]. rewrite D. uuid_cases u U. reflexivity. }
  apply text_of_decode in T; [|assumption]. destruct T as [-> F].
  rewrite X_layout, from_digits by assumption. reflexivity.
Qed.

Lemma unknown_letter ev w after u buf max s l :
  (forall up f, l <> letter up f) ->
  uuid_from_string w after s l = Throw invalid_argument /\
  try_make_uuid w after s l = Ok (RErr invalid_uuid_format_type) /\
  to_string ev w u l = Throw invalid_argument /\
  to_c_str ev w u buf max l = (buf, Ok false).
Proof.
  intros H.
  assert (A : parse_format l = None).
  { unfold parse_format.
    repeat match goal with |- context [l =? ?c] => rewrite (proj2 (N.eqb_neq l c)) end; auto;
    first [exact (H true FN)|exact (H false FN)|exact (H true FD)|exact (H false FD)|exact (H true FB)|exact (H false FB)
          |exact (H true FP)|exact (H false FP)|exact (H true FX)|exact (H false FX)]. }
  assert (B : print_format l = None).
  { unfold print_format.
    repeat match goal with |- context [l =? ?c] => rewrite (proj2 (N.eqb_neq l c)) end; auto;
    first [exact (H true FN)|exact (H false FN)|exact (H true FD)|exact (H false FD)|exact (H true FB)|exact (H false FB)
          |exact (H true FP)|exact (H false FP)|exact (H true FX)|exact (H false FX)]. }
  unfold uuid_from_string, try_make_uuid, to_string, to_c_str. rewrite A, B. auto.
Qed.

(** ** Characters isxdigit is not defined for *)
Lemma isxdigit_ub w c : ~ (c < 256 \/ (w = wide /\ c = 0xFFFFFFFF)) -> c_isxdigit w c = UB.
Proof.
  intros H. unfold c_isxdigit. rewrite (proj2 (N.ltb_ge _ _)) by lia. destruct w; [reflexivity|].
  rewrite (proj2 (N.eqb_neq _ _)) by (intros ->; tauto). reflexivity.
Qed.
Lemma checkable_cons w c r : ~ checkable w (c :: r) -> ~ (c < 256 \/ (w = wide /\ c = 0xFFFFFFFF)) \/ ~ checkable w r.
Proof.
  intros H. destruct (N.lt_ge_cases c 256) as [L|L].
  - right. intros F. apply H. constructor; auto.
  - destruct w.
    + left. intros [X|[X _]]; [lia|discriminate].
    + destruct (N.eq_dec c 0xFFFFFFFF) as [->|D]; [right; intros F; apply H; constructor; auto|].
      left. intros [X|[_ X]]; [lia|contradiction].
Qed.
Lemma isxdigit_cases w c : c_isxdigit w c = UB \/ exists x, c_isxdigit w c = Ok x.
Proof. unfold c_isxdigit. destruct (_ || _); eauto. Qed.
Lemma put_cases (out : list N) p c : put out p c = UB \/ exists o, put out p c = Ok o.
Proof. unfold put. destruct (_ <? _); eauto. Qed.
Lemma copy_hex_unchecked w : forall s out p, ~ checkable w s -> copy_hex w s out p = UB.
Proof.
  induction s as [|c r IH]; intros out p H; [exfalso; apply H; constructor|]. cbn [copy_hex].
  apply checkable_cons in H as [H|H]; [now rewrite isxdigit_ub|].
  destruct (isxdigit_cases w c) as [->|[x ->]]; [reflexivity|]. cbn [obind]. destruct x; [|auto].
  destruct (put_cases out p c) as [->|[o ->]]; [reflexivity|]. cbn [obind]. auto.
Qed.
Lemma remove_0x_unchecked w : forall n s out p, (length s <= n)%nat -> ~ checkable w s -> remove_0x w s 48 120 out p = UB.
Proof.
  induction n as [|n IH]; intros s out p L H; [destruct s; [exfalso; apply H; constructor|cbn in L; lia]|].
  destruct s as [|c r]; [exfalso; apply H; constructor|]. cbn [length] in L. cbn [remove_0x].
  assert (K : c <> 48 -> (let! x := c_isxdigit w c in
       if negb x then remove_0x w r 48 120 out p
       else let! out' := put out p c in remove_0x w r 48 120 out' (p + 1)) = UB).
  { intros _. apply checkable_cons in H as [H|H]; [now rewrite isxdigit_ub|].
    destruct (isxdigit_cases w c) as [->|[x ->]]; [reflexivity|]. cbn [obind]. destruct x; cbn [negb]; [|apply IH; auto; lia].
    destruct (put_cases out p c) as [->|[o ->]]; [reflexivity|]. cbn [obind]. apply IH; auto; lia. }
  destruct (N.eqb_spec c 48) as [->|Nc]; [|cbn [obind]; auto].
  destruct r as [|d r']; [reflexivity|]. cbn [obind].
  apply checkable_cons in H as [H|H]; [exfalso; apply H; left; lia|].
  destruct (N.eqb_spec d 120) as [->|Nd].
  - apply checkable_cons in H as [H|H]; [exfalso; apply H; left; lia|]. cbn [length] in L. apply IH; auto; lia.
  - assert (X : exists x, c_isxdigit w 48 = Ok x) by (destruct w; eexists; reflexivity). destruct X as [x ->]. cbn [obind].
    destruct x; cbn [negb]; [|apply IH; auto; cbn [length] in *; lia].
    destruct (put_cases out p 48) as [->|[o ->]]; [reflexivity|]. cbn [obind]. apply IH; auto; cbn [length] in *; lia.
Qed.

Lemma unchecked_parse w after s up f : f <> FX -> ~ checkable w s ->
  (delimited f s -> uuid_from_string w after s (letter up f) = UB /\ try_make_uuid w after s (letter up f) = UB) /\
  (~ delimited f s -> uuid_from_string w after s (letter up f) = Throw invalid_argument /\
                      try_make_uuid w after s (letter up f) = Ok (RErr invalid_uuid_format)).
Proof.
  intros NX H. unfold try_make_uuid, uuid_from_string. rewrite parse_format_letter. unfold uuid_from_fmt, try_make_uuid_fmt.
  split.
  - intros (ds & -> & L). rewrite valid_layout by exact L. cbn [obind negb].
    replace (f_prefixed (the_fmt true f)) with false by (destruct f; congruence || reflexivity).
    unfold strip_non_hex. rewrite copy_hex_unchecked by exact H. split; reflexivity.
  - intros D. destruct (valid_total true f s) as [[] V]; rewrite V; cbn [obind negb].
    + exfalso. apply D. destruct (valid_is_layout f s NX V) as (ds & L & ->). exists ds. auto.
    + split; reflexivity.
Qed.
Lemma unchecked_X w after s up : ~ checkable w s -> lenN s = 68 ->
  uuid_from_string w after s (letter up FX) = UB /\ try_make_uuid w after s (letter up FX) = UB.
Proof.
  intros H L. unfold try_make_uuid, uuid_from_string. rewrite parse_format_letter. cbn [the_fmt]. unfold uuid_from_fmt, try_make_uuid_fmt.
  rewrite valid_X, L. cbn [obind N.eqb Pos.eqb negb]. change (f_prefixed fmt_X) with true. unfold strip_non_hex.
  change (ch "0") with 48. change (ch "x") with 120. rewrite (remove_0x_unchecked w (length s)) by auto. split; reflexivity.
Qed.
Lemma X_wrong_length_any w after s up : lenN s <> 68 ->
  uuid_from_string w after s (letter up FX) = Throw invalid_argument /\ try_make_uuid w after s (letter up FX) = Ok (RErr invalid_uuid_format).
Proof.
  intros L. unfold try_make_uuid, uuid_from_string. rewrite parse_format_letter. cbn [the_fmt]. unfold uuid_from_fmt, try_make_uuid_fmt.
  rewrite valid_X, (proj2 (N.eqb_neq _ _) L). split; reflexivity.
Qed.
