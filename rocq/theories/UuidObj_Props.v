(** C106: the format objects of namespace uuid_format stand for the format letters.  As in
    C28, [In 0 after] is the NUL the parser's strlen needs behind its array. *)
From Coq Require Import Ascii String List. Import ListNotations.
From Verif Require Import Base Io_Model Hex_Model Hex_Spec Uuid_Model Uuid_Spec UuidObj_Model UuidObj_Spec UuidObj_Proofs.
Local Open Scope N_scope. Local Open Scope list_scope.

(** C106, all objects but [uuid_format::x]: try_make_uuid does the same with the object and
    with its letter, for every text. *)
Theorem C106_objects_partial : forall (w : cwidth) (after s : list N) (up : bool) (f : uformat), up = true \/ f <> FX ->
  try_make_uuid_with w after s (object_of up f) = try_make_uuid w after s (letter up f).
Proof. exact objects_agree. Qed.
Print Assumptions C106_objects_partial.

(** C106, [uuid_format::x]: the same for texts in braces and texts of another length than 68. *)
Theorem C106_x_partial : forall (w : cwidth) (after s : list N), braced s \/ lenN s <> 68 ->
  try_make_uuid_with w after s ox = try_make_uuid w after s (letter false FX).
Proof. exact x_agrees. Qed.
Print Assumptions C106_x_partial.
(** Every text without braces is rejected. *)
Theorem C106_x_rejects_partial : forall (w : cwidth) (after s : list N), ~ braced s ->
  try_make_uuid_with w after s ox = Ok (RErr invalid_uuid_format).
Proof. exact x_rejects. Qed.
Print Assumptions C106_x_rejects_partial.
(** C106 is false of [uuid_format::x]: it rejects a text that the letter accepts. *)
Theorem C106_x_refuted : exists s u, lenN s = 68 /\ forall w after, In 0 after ->
  try_make_uuid w after s (letter false FX) = Ok (RVal u) /\ try_make_uuid_with w after s ox = Ok (RErr invalid_uuid_format).
Proof. exact x_refuted. Qed.
Print Assumptions C106_x_refuted.

(** What was printed with a letter is read back with the object of that format, in either case. *)
Theorem C106_roundtrip_partial : forall (m : endian) (w : cwidth) (after : list N) (u : list byte) (up up2 : bool) (f : uformat), is_uuid u -> In 0 after ->
  exists s, to_string (Env m m) w u (letter up f) = Ok s /\ try_make_uuid_with w after s (object_of up2 f) = Ok (RVal u).
Proof. exact object_roundtrip. Qed.
Print Assumptions C106_roundtrip_partial.

Example C106_nonvacuous :
  let s := txt "{0x00112233,0x4455,0x6677,{0x88,0x99,0xaa,0xbb,0xcc,0xdd,0xee,0xff}}" in
  braced s /\ lenN s = 68 /\ (exists u, try_make_uuid_with narrow [7; 0] s ox = Ok (RVal u)) /\
  (exists u, try_make_uuid_with wide [0] (txt "(00112233-4455-6677-8899-AAbbccddeeff)") op = Ok (RVal u)) /\
  try_make_uuid_with wide [0] (txt "(00112233-4455-6677-8899-AAbbccddeeff]") op = Ok (RErr invalid_uuid_format) /\
  try_make_uuid_with wide [0] (txt "{00112233-4455-6677-8899:AAbbccddeeff}") ob = Ok (RErr invalid_uuid_format).
Proof.
  repeat split; try reflexivity.
  - exists (txt "0x00112233,0x4455,0x6677,{0x88,0x99,0xaa,0xbb,0xcc,0xdd,0xee,0xff}"). reflexivity.
  - eexists. vm_compute. reflexivity.
  - eexists. vm_compute. reflexivity.
Qed.
