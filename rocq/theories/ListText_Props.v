(** Theorems C123: lists of values in one line of text. *)
From Coq Require Import Ascii String List. Import ListNotations.
From Verif Require Import Base Io_Model Hex_Model Hex_Spec Uuid_Model Uuid_Spec String_Model String_Spec ListText_Spec ListText_Proofs.
Open Scope N_scope. Open Scope list_scope.

(** Texts padded with whitespace, joined, split and stripped come back. *)
Theorem C123_fields : forall ct white d max_size (l : list (padded (list N))),
  l <> [] -> Forall (padding_ok ct white d) l -> Forall (fun p => bare ct white d (item p)) l ->
  joined_length (map (fun p => around p (item p)) l) <= max_size -> max_size < size_mod ->
  exists s, write_list max_size d (fun t => Ok t) l = Ok s /\ read_list ct white d (fun t => Ok t) s = Ok (map item l).
Proof. exact fields. Qed.
Print Assumptions C123_fields.

(** Every line is such a list, and the reader finds its fields. *)
Theorem C123_any_text : forall ct white d s, Forall (testable ct) s ->
  exists l : list (padded (list N)), l <> [] /\ s = joined d (map (fun p => around p (item p)) l) /\
    Forall (padding_ok ct white d) l /\ Forall (fun p => bare ct white d (item p)) l /\
    read_list ct white d (fun t => Ok t) s = Ok (map item l).
Proof. exact any_text. Qed.
Print Assumptions C123_any_text.

(** Byte strings as hexadecimal text. *)
Theorem C123_hex : forall ct white w d max_size (l : list (padded (list byte))),
  l <> [] -> Forall (padding_ok ct white d) l ->
  Forall (fun p => Forall (fun c => c <> d /\ white c = false) (bytes_text true (item p))) l ->
  joined_length (map (fun p => around p (bytes_text true (item p))) l) <= max_size -> max_size < size_mod ->
  exists s, write_list max_size d hexlify l = Ok s /\ s = joined d (map (fun p => around p (bytes_text true (item p))) l) /\
    read_list ct white d (unhexlify w) s = Ok (map item l).
Proof. exact hex_list. Qed.
Print Assumptions C123_hex.

(** UUIDs, where a NUL lies behind the array of the parser (see C26). *)
Theorem C123_uuids : forall ct white m w after up f d max_size (l : list (padded (list byte))),
  l <> [] -> In 0 after -> Forall (padding_ok ct white d) l -> Forall (fun p => is_uuid (item p)) l ->
  Forall (fun p => Forall (fun c => c <> d /\ white c = false) (uuid_text up f (item p))) l ->
  joined_length (map (fun p => around p (uuid_text up f (item p))) l) <= max_size -> max_size < size_mod ->
  exists s, write_list max_size d (fun u => to_string (Env m m) w u (letter up f)) l = Ok s /\
    s = joined d (map (fun p => around p (uuid_text up f (item p))) l) /\
    read_list ct white d (fun t => uuid_from_string w after t (letter up f)) s = Ok (map item l).
Proof. exact uuid_list. Qed.
Print Assumptions C123_uuids.

Definition spaces (c : N) : bool := c =? 32.
Definition id1 : list byte := [x33; x22; x11; x00; x55; x44; x77; x66; x88; x99; xaa; xbb; xcc; xdd; xee; xff].
Definition hex_items := [Pad (txt "") [x01; xaf] (txt " "); Pad (txt "  ") [] (txt ""); Pad (txt " ") [xff] (txt " ")].
Definition id_items := [Pad (txt "") id1 (txt ""); Pad (txt " ") (rev id1) (txt "")].
Example C123_nonvacuous :
  (Forall (padding_ok (CChar true) spaces 44) hex_items /\
   Forall (fun p => Forall (fun c => c <> 44 /\ spaces c = false) (bytes_text true (item p))) hex_items) /\
  write_list 1000 44 hexlify hex_items = Ok (txt "01AF ,  , FF ") /\
  read_list (CChar true) spaces 44 (unhexlify narrow) (txt "01AF ,  , FF ") = Ok [[x01; xaf]; []; [xff]] /\
  (* a text with a delimiter in it is not read back *)
  write_list 1000 44 (fun u => to_string (Env little little) narrow u (letter true FD)) id_items
    = Ok (txt "00112233-4455-6677-8899-AABBCCDDEEFF, CCDDEEFF-AABB-8899-6677-445500112233") /\
  read_list (CChar true) spaces 44 (fun t => uuid_from_string narrow [0] t (letter true FD))
    (txt "00112233-4455-6677-8899-AABBCCDDEEFF, CCDDEEFF-AABB-8899-6677-445500112233") = Ok [id1; rev id1] /\
  read_list (CChar true) spaces 45 (fun t => uuid_from_string narrow [0] t (letter true FD))
    (txt "00112233-4455-6677-8899-AABBCCDDEEFF") <> Ok [id1].
Proof.
  split; [split|split; [|split; [|split; [|split]]]]; try (vm_compute; reflexivity).
  - unfold hex_items. repeat apply Forall_cons; try apply Forall_nil;
      (split; [|split; [|split]]); cbn [front back item];
      try (vm_compute; intuition discriminate);
      repeat (apply Forall_cons; [split; [reflexivity|vm_compute; reflexivity]|]); apply Forall_nil.
  - unfold hex_items. apply Forall_cons; [|apply Forall_cons; [|apply Forall_cons; [|apply Forall_nil]]]; cbn [item];
      apply Forall_forall; intros c; intros I;
      match type of I with In _ ?l =>
        assert (H : forallb (fun c => negb (c =? 44) && negb (spaces c)) l = true) by (vm_compute; reflexivity);
        apply (proj1 (forallb_forall _ _) H) in I end; clear H; rename I into H;
      cbn beta in H; apply andb_prop in H; destruct H as [A B];
      (split; [intros ->; discriminate|now apply Bool.negb_true_iff]).
  - vm_compute. discriminate.
Qed.
