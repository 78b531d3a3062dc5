(** Proofs about the hash of UUIDs. *)
From Coq Require Import List. Import ListNotations.
From Verif Require Import Base Io_Model Io_Proofs Uuid_Model.
Local Open Scope N_scope.

Lemma halves m h a b : length a = 8%nat ->
  uuid_hash m h (a ++ b) = N.lxor (h (int_of_mem m 8 false a)) (h (int_of_mem m 8 false b)).
Proof.
  intros A. unfold uuid_hash. rewrite firstn_app, skipn_app, A, Nat.sub_diag, firstn_O, skipn_O.
  rewrite (firstn_all2 a), (skipn_all2 a) by lia. now rewrite app_nil_r.
Qed.

Lemma half_differs m h :
  (forall x y : Z, (0 <= x < 2 ^ 64)%Z -> (0 <= y < 2 ^ 64)%Z -> h x = h y -> x = y) ->
  forall a c b, length a = 8%nat -> length c = 8%nat -> length b = 8%nat -> a <> c ->
    uuid_hash m h (a ++ b) <> uuid_hash m h (c ++ b) /\ uuid_hash m h (b ++ a) <> uuid_hash m h (b ++ c).
Proof.
  intros I a c b A C B D.
  assert (X : h (int_of_mem m 8 false a) <> h (int_of_mem m 8 false c)).
  { intros E. apply I in E.
    - apply D. rewrite <- (int_to_of_mem m 8 false a), <- (int_to_of_mem m 8 false c) by (auto; lia). now rewrite E.
    - exact (int_of_mem_ok m 8 false a ltac:(lia) A).
    - exact (int_of_mem_ok m 8 false c ltac:(lia) C). }
  rewrite !halves by assumption. split; intros E; apply X; clear X.
  - apply (f_equal (fun z => N.lxor z (h (int_of_mem m 8 false b)))) in E.
    now rewrite !N.lxor_assoc, N.lxor_nilpotent, !N.lxor_0_r in E.
  - apply (f_equal (fun z => N.lxor (h (int_of_mem m 8 false b)) z)) in E.
    now rewrite <- !N.lxor_assoc, N.lxor_nilpotent, !N.lxor_0_l in E.
Qed.
Lemma halves_collide m h a b : length a = 8%nat -> length b = 8%nat ->
  uuid_hash m h (a ++ b) = uuid_hash m h (b ++ a) /\ uuid_hash m h (a ++ a) = 0.
Proof. intros A B. rewrite !halves by assumption. split; [apply N.lxor_comm|apply N.lxor_nilpotent]. Qed.
