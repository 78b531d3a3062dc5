(** Theorems C26-C35: UUIDs.  [after] is the memory behind the parser's digit
    array: the list [[]] is the C++ standard's view (nothing there may be read). *)
From Verif Require Import Base Io_Model Io_Spec Hex_Model Hex_Spec Uuid_Model Uuid_Spec
  Uuid_Proofs UuidParse_Proofs UuidMake_Proofs Uuid_PropLemmas.
From Coq Require Import Ascii String List. Import ListNotations.
Open Scope N_scope. Open Scope list_scope.

Definition sample : list byte :=
  [x33; x22; x11; x00; x55; x44; x77; x66; x88; x99; xaa; xbb; xcc; xdd; xee; xff].

(** C26.  The parser runs strlen over its unterminated 32-character array, so by
    the language rules the round trip is undefined for every UUID and format. *)
Theorem C26_roundtrip_refuted : forall m w u up f, is_uuid u ->
  exists s, to_string (Env m m) w u (letter up f) = Ok s /\ uuid_from_string w [] s (letter up f) = UB.
Proof. exact roundtrip_refuted. Qed.
Print Assumptions C26_roundtrip_refuted.

(** If strlen finds a NUL in whatever follows the array, the round trip holds and
    the result does not depend on that memory. *)
Theorem C26_roundtrip_partial : forall m w after u up f, is_uuid u -> In 0 after ->
  exists s, to_string (Env m m) w u (letter up f) = Ok s /\ uuid_from_string w after s (letter up f) = Ok u.
Proof. exact roundtrip_partial. Qed.
Print Assumptions C26_roundtrip_partial.
Example C26_nonvacuous : is_uuid sample /\ In 0 [7; 0] /\
  to_string (Env big big) wide sample (letter false FX)
    = Ok (txt "{0x00112233,0x4455,0x6677,{0x88,0x99,0xaa,0xbb,0xcc,0xdd,0xee,0xff}}") /\
  uuid_from_string narrow [7; 0] (txt "{00112233-4455-6677-8899-aAbBccDDeeff}") (letter true FB) = Ok sample.
Proof. vm_compute. repeat split; auto. Qed.

(** C27. *)
Theorem C27_text : forall m w u up f, is_uuid u ->
  to_string (Env m m) w u (letter up f) = Ok (uuid_text up f u) /\
  lenN (uuid_text up f u) = format_length f.
Proof. exact canonical. Qed.
Print Assumptions C27_text.
Theorem C27_injective : forall m w u v up f s, is_uuid u -> is_uuid v ->
  to_string (Env m m) w u (letter up f) = Ok s -> to_string (Env m m) w v (letter up f) = Ok s -> u = v.
Proof. exact canonical_inj. Qed.
Print Assumptions C27_injective.
Example C27_nonvacuous : is_uuid sample /\
  uuid_text true FP sample = txt "(00112233-4455-6677-8899-AABBCCDDEEFF)" /\
  to_string (Env little little) narrow sample (letter true FP) = Ok (uuid_text true FP sample).
Proof. vm_compute. repeat split; auto. Qed.

(** C28.  For narrow text (all characters below 256) and wide text in that range;
    any other wide character is passed to std::isxdigit outside its domain. *)
Theorem C28_parser_exact_partial : forall w after s up f, f <> FX -> checkable w s -> In 0 after ->
  match uuid_from_string w after s (letter up f) with
  | Ok u => text_of f s u
  | Throw e => e = invalid_argument /\ ~ well_formed f s
  | _ => False
  end.
Proof. exact uuid_from_string_char. Qed.
Print Assumptions C28_parser_exact_partial.
Theorem C28_try_parser_partial : forall w after s up f, f <> FX -> checkable w s -> In 0 after ->
  try_make_uuid w after s (letter up f) =
    match uuid_from_string w after s (letter up f) with
    | Ok u => Ok (RVal u) | _ => Ok (RErr invalid_uuid_format) end.
Proof. exact try_make_uuid_char. Qed.
Print Assumptions C28_try_parser_partial.
Theorem C28_accepted_text_overreads_refuted : forall w s up f, f <> FX -> checkable w s -> well_formed f s ->
  uuid_from_string w [] s (letter up f) = UB /\ try_make_uuid w [] s (letter up f) = UB.
Proof. exact parse_standard_ub. Qed.
Print Assumptions C28_accepted_text_overreads_refuted.
Theorem C28_wide_characters_refuted : exists s, lenN s = 32 /\ forall after,
  uuid_from_string wide after s (letter true FN) = UB /\ try_make_uuid wide after s (letter true FN) = UB.
Proof. exact wide_refuted. Qed.
Print Assumptions C28_wide_characters_refuted.
(** ... exactly: text with a character isxdigit is not defined for is undefined if its delimiters are right and rejected otherwise. *)
Theorem C28_other_characters_partial : forall w after s up f, f <> FX -> ~ checkable w s ->
  (delimited f s -> uuid_from_string w after s (letter up f) = UB /\ try_make_uuid w after s (letter up f) = UB) /\
  (~ delimited f s -> uuid_from_string w after s (letter up f) = Throw invalid_argument /\
                      try_make_uuid w after s (letter up f) = Ok (RErr invalid_uuid_format)).
Proof. exact unchecked_parse. Qed.
Print Assumptions C28_other_characters_partial.
Example C28_other_characters_nonvacuous :
  let s := repeat 49 31 ++ [0x1F600] in ~ checkable wide s /\ delimited FN s /\ ~ delimited FD s /\
  checkable wide (repeat 49 31 ++ [0xFFFFFFFF]).
Proof.
  cbv zeta. split; [|split; [|split]].
  - intros H. apply Forall_app in H as [_ H]. inversion H as [|? ? [X|[_ X]] _]; discriminate X.
  - exists (repeat 49 31 ++ [0x1F600]). split; reflexivity.
  - intros (ds & E & L). apply (f_equal (@List.length N)) in E. unfold layout, dashed, part in E.
    rewrite !app_length, !firstn_length, !skipn_length, L in E. discriminate E.
  - apply Forall_app. split; [apply Forall_forall; intros x I; apply repeat_spec in I; subst; left; reflexivity|].
    constructor; [right; split; reflexivity|constructor].
Qed.
Example C28_nonvacuous : latin1 (txt "00112233-4455-6677-8899-aabbccddeefg") /\
  uuid_from_string narrow [0] (txt "00112233-4455-6677-8899-aabbccddeefg") (letter true FD) = Throw invalid_argument /\
  uuid_from_string narrow [0] (txt "00112233-4455-6677-8899-aabbccddeeff") (letter true FD) = Ok sample.
Proof. split; [repeat constructor|split; reflexivity]. Qed.

(** C29.  False in two ways: more than 32 digits are stored outside the array; a
    final '0' makes the parser read the character after the last one. *)
Theorem C29_overflow_refuted : exists s, lenN s = 68 /\ latin1 s /\
  (forall w after, uuid_from_string w after s (letter true FX) = UB) /\ ~ ends_with_0 s /\ 32 < digit_positions s.
Proof. exact X_overflow_refuted. Qed.
Print Assumptions C29_overflow_refuted.
Theorem C29_overread_refuted : exists s, lenN s = 68 /\ latin1 s /\
  (forall w after, uuid_from_string w after s (letter true FX) = UB) /\ ends_with_0 s /\ digit_positions s <= 32.
Proof. exact X_overread_refuted. Qed.
Print Assumptions C29_overread_refuted.
(** Exactly those inputs are dangerous (given the memory assumption of C26). *)
Theorem C29_exact_condition_partial : forall w after s up, checkable w s -> lenN s = 68 -> In 0 after ->
  (uuid_from_string w after s (letter up FX) = UB <-> ends_with_0 s \/ 32 < digit_positions s) /\
  match uuid_from_string w after s (letter up FX) with
  | Ok u => is_uuid u /\ digit_positions s = 32
  | Throw e => e = invalid_argument /\ digit_positions s < 32
  | UB => True
  | _ => False
  end.
Proof. exact X_safe_partial. Qed.
Print Assumptions C29_exact_condition_partial.
Theorem C29_other_lengths_partial : forall w after s up, lenN s <> 68 ->
  uuid_from_string w after s (letter up FX) = Throw invalid_argument /\
  try_make_uuid w after s (letter up FX) = Ok (RErr invalid_uuid_format).
Proof. exact X_wrong_length_any. Qed.
Print Assumptions C29_other_lengths_partial.
Theorem C29_other_characters_partial : forall w after s up, ~ checkable w s -> lenN s = 68 ->
  uuid_from_string w after s (letter up FX) = UB /\ try_make_uuid w after s (letter up FX) = UB.
Proof. exact unchecked_X. Qed.
Print Assumptions C29_other_characters_partial.
Example C29_nonvacuous :
  let s := txt "{0x00112233,0x4455,0x6677,{0x88,0x99,0xaa,0xbb,0xcc,0xdd,0xee,0xff}}" in
  latin1 s /\ lenN s = 68 /\ digit_positions s = 32 /\
  uuid_from_string narrow [0] s (letter true FX) = Ok sample.
Proof. cbv zeta. split; [repeat constructor|repeat split]. Qed.

(** C30.  False: text with no X delimiter at all is accepted. *)
Theorem C30_only_x_text_refuted : exists s u, lenN s = 68 /\ ~ well_formed FX s /\ forall w after, In 0 after ->
  uuid_from_string w after s (letter true FX) = Ok u.
Proof. exact X_accepts_refuted. Qed.
Print Assumptions C30_only_x_text_refuted.
(** What does hold: well-formed X text is accepted with its value. *)
Theorem C30_x_text_accepted_partial : forall w after s up u, In 0 after -> text_of FX s u ->
  uuid_from_string w after s (letter up FX) = Ok u.
Proof. exact X_accepts_layout. Qed.
Print Assumptions C30_x_text_accepted_partial.
Example C30_nonvacuous : text_of FX (txt "{0x00112233,0x4455,0x6677,{0x88,0x99,0xaa,0xbb,0xcc,0xdd,0xee,0xff}}") sample.
Proof.
  split; [reflexivity|]. exists (uuid_digits false sample). split; [reflexivity|apply uuid_digits_denotes].
Qed.

(** C31. *)
Theorem C31_unknown_letter : forall ev w after u buf max s l,
  (forall up f, l <> letter up f) ->
  uuid_from_string w after s l = Throw invalid_argument /\
  try_make_uuid w after s l = Ok (RErr invalid_uuid_format_type) /\
  to_string ev w u l = Throw invalid_argument /\
  to_c_str ev w u buf max l = (buf, Ok false).
Proof. exact unknown_letter. Qed.
Print Assumptions C31_unknown_letter.
Example C31_nonvacuous : forall up f, 81 <> letter up f.
Proof. intros [] []; discriminate. Qed.

(** C32.  [buf] is the caller's buffer, [size] what they say its size is.  Only a size larger than the
    buffer can lead to a store outside it. *)
Theorem C32_to_c_str : forall m w u up f buf size, is_uuid u ->
  to_c_str (Env m m) w u buf size (letter up f) =
    if size <? format_length f + 1 then (buf, Ok false)
    else if lenN buf <? format_length f + 1 then (buf, UB)
    else (uuid_text up f u ++ [0] ++ dropN (format_length f + 1) buf, Ok true).
Proof. exact to_c_str_char. Qed.
Print Assumptions C32_to_c_str.
Example C32_nonvacuous : is_uuid sample /\
  to_c_str (Env little little) narrow sample (repeat 35 35) 35 (letter false FN)
    = (txt "00112233445566778899aabbccddeeff" ++ [0; 35; 35], Ok true) /\
  to_c_str (Env little little) wide sample (repeat 35 32) 32 (letter false FN) = (repeat 35 32, Ok false) /\
  snd (to_c_str (Env little little) wide sample (repeat 35 32) 33 (letter false FN)) = UB.
Proof. vm_compute. repeat split. Qed.

(** C33. *)
Theorem C33_field_text : forall m w up d1 d2 d3 d4, fields_ok d1 d2 d3 d4 ->
  exists u s1 s2 s3,
    uuid_from_fields (Env m m) d1 d2 d3 d4 = Ok u /\
    is_hex_number up 8 d1 s1 /\ is_hex_number up 4 d2 s2 /\ is_hex_number up 4 d3 s3 /\
    to_string (Env m m) w u (letter up FD) =
      Ok (s1 ++ txt "-" ++ s2 ++ txt "-" ++ s3 ++ txt "-" ++ bytes_text up (firstn 2 d4)
          ++ txt "-" ++ bytes_text up (skipn 2 d4)).
Proof. exact fields_text. Qed.
Print Assumptions C33_field_text.
Theorem C33_fields_injective : forall m a1 a2 a3 a4 b1 b2 b3 b4, fields_ok a1 a2 a3 a4 -> fields_ok b1 b2 b3 b4 ->
  uuid_from_fields (Env m m) a1 a2 a3 a4 = uuid_from_fields (Env m m) b1 b2 b3 b4 <->
  a1 = b1 /\ a2 = b2 /\ a3 = b3 /\ a4 = b4.
Proof. exact fields_inj. Qed.
Print Assumptions C33_fields_injective.
Example C33_nonvacuous : fields_ok 0x112233 0x4455 0x6677 [x88; x99; xaa; xbb; xcc; xdd; xee; xff] /\
  uuid_from_fields (Env big big) 0x112233 0x4455 0x6677 [x88; x99; xaa; xbb; xcc; xdd; xee; xff] = Ok sample.
Proof. split; [repeat split; discriminate|reflexivity]. Qed.

(** C34.  False: the version bits are put in the wrong byte, so the third group
    does not start with 4, on either byte order. *)
Theorem C34_version_refuted : forall m, exists w1 w2 s,
  to_string (Env m m) narrow (uuid_random m w1 w2) (letter true FD) = Ok s /\ nth_error s 14 <> Some (chr "4").
Proof. exact random_version_refuted. Qed.
Print Assumptions C34_version_refuted.
(** The 4 is always the third digit of the third group; the variant is right. *)
Theorem C34_variant_partial : forall m w up w1 w2, exists s c,
  to_string (Env m m) w (uuid_random m w1 w2) (letter up FD) = Ok s /\
  nth_error s 16 = Some (chr "4") /\ nth_error s 19 = Some c /\
  In c (if up then txt "89AB" else txt "89ab").
Proof. exact random_text. Qed.
Print Assumptions C34_variant_partial.
(** All other bits are the engine's: [a] and [b] are its two words in memory. *)
Theorem C34_random_bits_partial : forall m w1 w2 a b, w1 < 2 ^ 64 -> w2 < 2 ^ 64 ->
  is_wire m 8 (Z.of_N w1) a -> is_wire m 8 (Z.of_N w2) b ->
  let u := uuid_random m w1 w2 in
  length u = 16%nat /\
  (forall i, i <> 6%nat -> i <> 8%nat -> nth_error u i = nth_error (a ++ b) i) /\
  Byte.to_N (nth 6 u x00) mod 16 = Byte.to_N (nth 6 (a ++ b) x00) mod 16 /\
  Byte.to_N (nth 8 u x00) mod 64 = Byte.to_N (nth 8 (a ++ b) x00) mod 64.
Proof. exact random_bits_wire. Qed.
Print Assumptions C34_random_bits_partial.
Example C34_nonvacuous :
  to_string (Env little little) narrow (uuid_random little 0x0123456789ABCDEF 0xFFFFFFFFFFFFFFFF) (letter true FD)
    = Ok (txt "89ABCDEF-4567-0143-BFFF-FFFFFFFFFFFF").
Proof. vm_compute. reflexivity. Qed.

(** C35. *)
Theorem C35_lexicographic : forall a b, is_uuid a -> is_uuid b -> (uuid_compare a b = Lt <-> lex_before a b).
Proof. intros a b A B. apply compare_lt. unfold is_uuid in *. congruence. Qed.
Print Assumptions C35_lexicographic.
Theorem C35_total_order :
  (forall a b, uuid_compare a b = Eq <-> uuid_equal a b = true) /\
  (forall a b, uuid_equal a b = true <-> a = b) /\
  (forall a b, uuid_compare b a = CompOpp (uuid_compare a b)) /\
  (forall a b c, uuid_compare a b = Lt -> uuid_compare b c = Lt -> uuid_compare a c = Lt).
Proof.
  split; [intros a b; rewrite compare_eq, equal_iff; reflexivity|].
  split; [intros a b; apply equal_iff|]. split; [intros a b; apply UuidMake_Proofs.compare_antisym|exact compare_trans].
Qed.
Print Assumptions C35_total_order.
Theorem C35_equal_hash : forall m h a b, uuid_equal a b = true -> uuid_hash m h a = uuid_hash m h b.
Proof. intros m h a b E. apply equal_iff in E. now subst. Qed.
Print Assumptions C35_equal_hash.
Example C35_nonvacuous : is_uuid sample /\ uuid_compare (repeat x00 16) sample = Lt /\
  uuid_equal sample sample = true.
Proof. vm_compute. repeat split. Qed.
