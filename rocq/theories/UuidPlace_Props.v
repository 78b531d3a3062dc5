(** C120: where a uuid object may lie.  [al] is alignof(uint64_t), [h] is std::hash<uint64_t>. *)
From Coq Require Import List Lia. Import ListNotations.
From Verif Require Import Base Io_Model Uuid_Model UuidPlace_Model UuidPlace_Spec UuidPlace_Proofs.
Local Open Scope N_scope.

(** C120, refuted: unless uint64_t has alignment 1, there is a struct in which a uuid member lies where making it
    from an engine and hashing it are undefined, even if the struct itself lies at a multiple of 16. *)
Theorem C120_any_place_refuted : forall al m base, word_alignment al -> al <> 1 -> aligned 16 base ->
  exists ms o, member_after ms o /\
    (forall w1 w2 mem, uuid_engine_at al m w1 w2 (base + o) mem = UB) /\
    (forall h mem, uuid_hash_at al m h (base + o) mem = UB).
Proof. exact misplaced_refuted. Qed.
Print Assumptions C120_any_place_refuted.

(** C120: at an aligned address the engine's words make the same UUID as at any other, and nothing around the
    object changes. *)
Theorem C120_make_partial : forall al m w1 w2 a mem, word_alignment al -> aligned al a -> exists mem',
  uuid_engine_at al m w1 w2 a mem = Ok mem' /\ holds mem' a (uuid_random m w1 w2) /\ changed_only mem mem' a 16.
Proof. exact engine_at_make. Qed.
Print Assumptions C120_make_partial.

(** C120: at an aligned address the hash is that of the object's bytes. *)
Theorem C120_hash_partial : forall al m h a mem id,
  word_alignment al -> aligned al a -> length id = 16%nat -> holds mem a id ->
  uuid_hash_at al m h a mem = Ok (uuid_hash m h id).
Proof. exact hash_at. Qed.
Print Assumptions C120_hash_partial.

(** C120: at every other address both are undefined. *)
Theorem C120_misplaced : forall al m a, word_alignment al -> ~ aligned al a ->
  (forall w1 w2 mem, uuid_engine_at al m w1 w2 a mem = UB) /\ (forall h mem, uuid_hash_at al m h a mem = UB).
Proof. exact misplaced. Qed.
Print Assumptions C120_misplaced.

(** C120: the elements of an array of UUIDs are all usable or all not, as the place of the array says. *)
Theorem C120_arrays : forall al m base k, word_alignment al ->
  (aligned al base -> (forall w1 w2 mem, exists mem', uuid_engine_at al m w1 w2 (base + 16 * k) mem = Ok mem') /\
                      (forall h mem, exists r, uuid_hash_at al m h (base + 16 * k) mem = Ok r)) /\
  (~ aligned al base -> (forall w1 w2 mem, uuid_engine_at al m w1 w2 (base + 16 * k) mem = UB) /\
                        (forall h mem, uuid_hash_at al m h (base + 16 * k) mem = UB)).
Proof. exact array_elements. Qed.
Print Assumptions C120_arrays.

(** With 8 for alignof(uint64_t): a struct at 4096 with a bool and a uuid, and one with a uint64_t, a uuid and a
    second uuid. *)
Example C120_nonvacuous :
  member_after [(1, 1)] 1 /\ ~ aligned 8 (4096 + 1) /\
  uuid_engine_at 8 little 1 2 (4096 + 1) (fun _ => x11) = UB /\
  aligned 8 (4096 + 8) /\
  match uuid_engine_at 8 little 1 2 (4096 + 8) (fun _ => x11) with
  | Ok mem => map mem [4103; 4104; 4105; 4110; 4112; 4119; 4120] = [x11; x01; x00; x40; x82; x00; x11] /\
              uuid_hash_at 8 little Z.to_N (4096 + 8) mem = Ok (N.lxor (2 ^ 54 + 1) 130)
  | _ => False
  end /\
  uuid_hash_at 8 big Z.to_N (4096 + 4) (fun _ => x11) = UB /\
  uuid_hash_at 4 big Z.to_N (4096 + 4) (fun _ => x11) = Ok 0.
Proof.
  split; [exact after_a_byte|]. split; [intros [k E]; lia|]. split; [reflexivity|]. split; [exists 513; reflexivity|].
  split; [vm_compute; split; reflexivity|]. split; reflexivity.
Qed.
