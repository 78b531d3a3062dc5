(** C108: what the hash of a UUID tells apart.  [h] is std::hash<uint64_t>. *)
From Coq Require Import List. Import ListNotations.
From Verif Require Import Base Io_Model Uuid_Model UuidHash_Proofs.
Local Open Scope N_scope.

(** C108: if std::hash<uint64_t> is injective, UUIDs that differ in one half only have different hashes. *)
Theorem C108_half_differs : forall m h,
  (forall x y : Z, (0 <= x < 2 ^ 64)%Z -> (0 <= y < 2 ^ 64)%Z -> h x = h y -> x = y) ->
  forall a c b, length a = 8%nat -> length c = 8%nat -> length b = 8%nat -> a <> c ->
    uuid_hash m h (a ++ b) <> uuid_hash m h (c ++ b) /\ uuid_hash m h (b ++ a) <> uuid_hash m h (b ++ c).
Proof. exact half_differs. Qed.
Print Assumptions C108_half_differs.
(** C108: whatever std::hash<uint64_t> is, swapping the halves keeps the hash, and equal halves give 0. *)
Theorem C108_halves_collide : forall m h a b, length a = 8%nat -> length b = 8%nat ->
  uuid_hash m h (a ++ b) = uuid_hash m h (b ++ a) /\ uuid_hash m h (a ++ a) = 0.
Proof. exact halves_collide. Qed.
Print Assumptions C108_halves_collide.
Example C108_nonvacuous :
  (forall x y : Z, (0 <= x < 2 ^ 64)%Z -> (0 <= y < 2 ^ 64)%Z -> Z.to_N x = Z.to_N y -> x = y) /\
  uuid_hash little Z.to_N (repeat x00 7 ++ [x80] ++ repeat x00 8) = 2 ^ 63 /\
  uuid_hash little Z.to_N (repeat xff 8 ++ repeat x00 8) = 2 ^ 64 - 1 /\
  uuid_hash big Z.to_N (repeat x00 7 ++ [x01] ++ repeat xff 8) = 2 ^ 64 - 2.
Proof. split; [lia|]. repeat split; vm_compute; reflexivity. Qed.
