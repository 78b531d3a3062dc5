(** Theorems C91, C92: case, format conversion and order of UUID text.  As in
    C28, [In 0 after] is the NUL the parser's strlen needs behind its array. *)
From Coq Require Import Ascii String List. Import ListNotations.
From Verif Require Import Base Io_Model Hex_Model Hex_Spec Uuid_Model Uuid_Spec
  Uuid_Proofs UuidParse_Proofs UuidMake_Proofs Uuid_PropLemmas UuidText_Spec UuidText_Proofs.
Open Scope N_scope. Open Scope list_scope.

(** C91.  Whatever is parsed, printing in any format lays out the same 32 digits. *)
Theorem C91_convert_partial : forall m w w2 after s up f u up2 g, f <> FX -> checkable w s -> In 0 after ->
  uuid_from_string w after s (letter up f) = Ok u ->
  exists ds, s = layout f ds /\ List.length ds = 32%nat /\
    to_string (Env m m) w2 u (letter up2 g) = Ok (layout g (map (recase up2) ds)).
Proof. exact convert. Qed.
Print Assumptions C91_convert_partial.
(** In its own format the text comes back, in the printer's case. *)
Theorem C91_canonical_partial : forall m w w2 after s up f u up2, f <> FX -> checkable w s -> In 0 after ->
  uuid_from_string w after s (letter up f) = Ok u ->
  to_string (Env m m) w2 u (letter up2 f) = Ok (map (recase up2) s).
Proof. exact canonicalises. Qed.
Print Assumptions C91_canonical_partial.
(** Format X, for well formed texts only (C29 has the rest). *)
Theorem C91_canonical_X_partial : forall m w after s up up2, In 0 after -> well_formed FX s ->
  exists u, uuid_from_string w after s (letter up FX) = Ok u /\
    to_string (Env m m) w u (letter up2 FX) = Ok (map (recase up2) s).
Proof. exact canonicalises_X. Qed.
Print Assumptions C91_canonical_X_partial.
(** Format X in general: the digits printed are those of the text outside "0x". *)
Theorem C91_convert_X_partial : forall m w w2 after s up u up2 g, checkable w s -> In 0 after ->
  uuid_from_string w after s (letter up FX) = Ok u ->
  List.length (bare_digits s) = 32%nat /\
  to_string (Env m m) w2 u (letter up2 g) = Ok (layout g (map (recase up2) (bare_digits s))).
Proof. exact convert_X. Qed.
Print Assumptions C91_convert_X_partial.
(** The text of format X does not come back if its delimiters are others, which the
    parser accepts. *)
Theorem C91_canonical_X_refuted : exists s u, lenN s = 68 /\
  (forall w after up, In 0 after -> uuid_from_string w after s (letter up FX) = Ok u) /\
  forall m w up2, exists t, to_string (Env m m) w u (letter up2 FX) = Ok t /\ map (recase up2) t <> map (recase up2) s.
Proof. exact X_text_refuted. Qed.
Print Assumptions C91_canonical_X_refuted.
(** Neither the case of the text nor that of the format letter matters, for
    accepted and rejected texts alike. *)
Theorem C91_case_insensitive_partial : forall w after s up b f c, checkable w s -> In 0 after ->
  uuid_from_string w after (map (recase b) s) (letter c f) = uuid_from_string w after s (letter up f).
Proof. exact case_insensitive_all. Qed.
Print Assumptions C91_case_insensitive_partial.
Example C91_nonvacuous :
  let s := txt "00112233-4455-6677-8899-aAbBccDDeeff" in
  latin1 s /\ (exists u, uuid_from_string narrow [7; 0] s (letter true FD) = Ok u /\
    to_string (Env big big) narrow u (letter true FD) = Ok (txt "00112233-4455-6677-8899-AABBCCDDEEFF") /\
    to_string (Env big big) wide u (letter false FN) = Ok (txt "00112233445566778899aabbccddeeff")) /\
  map (recase true) s = txt "00112233-4455-6677-8899-AABBCCDDEEFF" /\
  (exists x, well_formed FX x /\ x = txt "{0x00112233,0x4455,0x6677,{0x88,0x99,0xaA,0xBb,0xcc,0xdd,0xee,0xff}}") /\
  uuid_from_string narrow [7; 0] (txt "0011") (letter true FD) = Throw invalid_argument.
Proof.
  split; [repeat constructor|]. split; [eexists; vm_compute; auto|]. split; [reflexivity|]. split; [|reflexivity].
  eexists. split; [|reflexivity]. exists (txt "00112233445566778899aABbccddeeff").
  split; [reflexivity|]. split; [reflexivity|]. repeat constructor; discriminate.
Qed.

(** C92.  The first three fields are stored lowest byte first and compared that
    way, so in every format text order can contradict the order of UUIDs. *)
Theorem C92_text_order_refuted : forall m w up f, exists u v s t, is_uuid u /\ is_uuid v /\ uuid_compare u v = Lt /\
  to_string (Env m m) w u (letter up f) = Ok s /\ to_string (Env m m) w v (letter up f) = Ok t /\ text_before t s.
Proof. exact reversed. Qed.
Print Assumptions C92_text_order_refuted.
(** Texts are ordered as the bytes in the order they are printed, in every format. *)
Theorem C92_exact_order_partial : forall m w u v up f s t, is_uuid u -> is_uuid v ->
  to_string (Env m m) w u (letter up f) = Ok s -> to_string (Env m m) w v (letter up f) = Ok t ->
  (text_before s t <-> lex_before (text_order u) (text_order v)).
Proof. exact shown_before. Qed.
Print Assumptions C92_exact_order_partial.
(** UUIDs with the same first three fields are ordered as their texts. *)
Theorem C92_same_fields_partial : forall m w u v up f s t, is_uuid u -> is_uuid v -> firstn 8 u = firstn 8 v ->
  to_string (Env m m) w u (letter up f) = Ok s -> to_string (Env m m) w v (letter up f) = Ok t ->
  (uuid_compare u v = Lt <-> text_before s t).
Proof. exact same_fields_shown. Qed.
Print Assumptions C92_same_fields_partial.
Example C92_nonvacuous :
  let u := [x01; x02; x03; x04; x05; x06; x07; x08; x09; x0a; x0b; x0c; x0d; x0e; x0f; x10] in
  let v := [x01; x02; x03; x04; x05; x06; x07; x08; x09; xa0; x0b; x0c; x0d; x0e; x0f; x10] in
  is_uuid u /\ is_uuid v /\ firstn 8 u = firstn 8 v /\ uuid_compare u v = Lt /\
  (exists s, to_string (Env big big) narrow u (letter true FB) = Ok s /\ s = txt "{04030201-0605-0807-090A-0B0C0D0E0F10}") /\
  (exists s, to_string (Env big big) narrow v (letter true FB) = Ok s /\ s = txt "{04030201-0605-0807-09A0-0B0C0D0E0F10}") /\
  text_before (uuid_text true FB u) (uuid_text true FB v).
Proof.
  do 4 (split; [reflexivity|]). split; [eexists; split; reflexivity|]. split; [eexists; split; reflexivity|].
  exists 22%nat, 48, 65. vm_compute. auto.
Qed.
