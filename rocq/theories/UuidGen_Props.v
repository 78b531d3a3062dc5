(** C109, C110: random UUIDs, over every program and every schedule of threads. *)
From Coq Require Import List. Import ListNotations.
From Verif Require Import Base Io_Model Uuid_Model UuidGen_Model UuidGen_Spec UuidGen_Proofs UuidBits_Proofs UuidSeed_Proofs.
Local Open Scope N_scope.

(** C109: a program that makes UUIDs with any number of engines: the k-th UUID made with an engine is made of
    words 2k and 2k+1 of that engine, which ends up twice as many calls further as it made UUIDs. *)
Theorem C109_engines : forall (E : Type) m (next : E -> N * E) ops (es : nat -> E) us es',
  engines_run m next ops es = (us, es') ->
  map fst us = ops /\
  forall i, let n := count_occ Nat.eq_dec ops i in
    map snd (filter (fun p => Nat.eqb (fst p) i) us) =
      map (fun k => uuid_random m (word next (es i) (2 * k)) (word next (es i) (2 * k + 1))) (seq 0 n) /\
    es' i = advanced next (es i) (2 * n).
Proof. exact @engines_spec. Qed.
Print Assumptions C109_engines.

(** C109: make_uuid on threads interleaved in any way: a thread whose random_device failed [k] times and then gave
    [v] has seen [k] exceptions and then the UUIDs made of consecutive words of the twister seeded with [v]. *)
Theorem C109_any_schedule : forall m schedule i k v rest x,
  steps_of i schedule = repeat None k ++ Some v :: rest -> twister_sequence (v mod 2 ^ 32) x ->
  made_by m schedule i = repeat None k ++
    map (fun j => Some (uuid_random m (tempered (x (312 + 2 * j)%nat)) (tempered (x (313 + 2 * j)%nat))))
        (seq 0 ((length rest + 1) / 3)).
Proof. exact any_schedule. Qed.
Print Assumptions C109_any_schedule.
(** C109: a thread whose random_device always fails gets an exception each time. *)
Theorem C109_no_entropy : forall m schedule i k, steps_of i schedule = repeat None k -> made_by m schedule i = repeat None k.
Proof. exact made_never. Qed.
Print Assumptions C109_no_entropy.
(** C109: what the other threads do, and when, does not matter. *)
Theorem C109_other_threads : forall m schedule schedule' i,
  steps_of i schedule = steps_of i schedule' -> made_by m schedule i = made_by m schedule' i.
Proof. exact only_own_steps. Qed.
Print Assumptions C109_other_threads.
(** C109: the sequences of words the theorems speak of exist, for every seed, and each is the engine's. *)
Theorem C109_twister : forall seed, (exists x, twister_sequence seed x) /\
  forall x i, twister_sequence seed x -> word mt_next (mt_seed seed) i = tempered (x (i + 312)%nat).
Proof. exact (fun seed => conj (sequence_exists seed) (fun x i => mt_word seed x i)). Qed.
Print Assumptions C109_twister.
Example C109_nonvacuous :
  steps_of 1 [(0%nat, Some 7); (1%nat, None); (1%nat, Some 9); (0%nat, None); (1%nat, None); (1%nat, None)] = repeat None 1 ++ Some 9 :: [None; None] /\
  length (made_by little [(0%nat, Some 7); (1%nat, None); (1%nat, Some 9); (0%nat, None); (1%nat, None); (1%nat, None)] 1) = 2%nat /\
  map (word mt_next (mt_seed 5489)) [0; 1; 2]%nat = [14514284786278117030; 4620546740167642908; 13109570281517897720] /\
  map snd (fst (engines_run little (fun n => (n, n + 1)) [1; 0; 1]%nat (fun i => N.of_nat i * 2 ^ 56))) =
    [uuid_random little (2 ^ 56) (2 ^ 56 + 1); uuid_random little 0 1; uuid_random little (2 ^ 56 + 2) (2 ^ 56 + 3)].
Proof. split; [reflexivity|]. split; [vm_compute; reflexivity|]. split; vm_compute; reflexivity. Qed.

(** C110 is refuted: in every schedule in which more than 2^32 threads have made UUIDs, two of them have made the
    same first UUID, and go on to make the same ones. *)
Theorem C110_unique_refuted : forall m schedule ts,
  NoDup ts -> 2 ^ 32 < lenN ts -> (forall t, In t ts -> uuids (made_by m schedule t) <> []) ->
  exists a b u, In a ts /\ In b ts /\ a <> b /\
    hd_error (uuids (made_by m schedule a)) = Some u /\ hd_error (uuids (made_by m schedule b)) = Some u /\
    forall j w w', nth_error (uuids (made_by m schedule a)) j = Some w ->
                   nth_error (uuids (made_by m schedule b)) j = Some w' -> w = w'.
Proof. exact collide_first. Qed.
Print Assumptions C110_unique_refuted.
(** C110: two threads that were given the same 32-bit value make the same UUIDs in the same order. *)
Theorem C110_same_value_partial : forall m schedule a b ka kb v ra rb,
  steps_of a schedule = repeat None ka ++ Some v :: ra -> steps_of b schedule = repeat None kb ++ Some v :: rb ->
  (length ra <= length rb)%nat ->
  exists more, uuids (made_by m schedule b) = uuids (made_by m schedule a) ++ more.
Proof. exact same_value. Qed.
Print Assumptions C110_same_value_partial.
(** C110: two random UUIDs are equal exactly when their words agree on the 122 bits that are not replaced. *)
Theorem C110_equal_bits_partial : forall m a b c d, a < 2 ^ 64 -> b < 2 ^ 64 -> c < 2 ^ 64 -> d < 2 ^ 64 ->
  (uuid_random m a b = uuid_random m c d <->
   (forall i, i < 64 -> ~ replaced_first m i -> N.testbit a i = N.testbit c i) /\
   (forall i, i < 64 -> ~ replaced_second m i -> N.testbit b i = N.testbit d i)).
Proof. exact random_equal. Qed.
Print Assumptions C110_equal_bits_partial.
(** C110: engines with different 64-bit seeds differ somewhere in their first 312 UUIDs. *)
Theorem C110_different_seeds_partial : forall s s' x x', twister_sequence s x -> twister_sequence s' x' -> forall m,
  (forall j, (j < 312)%nat -> uuid_random m (tempered (x (312 + 2 * j)%nat)) (tempered (x (313 + 2 * j)%nat)) =
                              uuid_random m (tempered (x' (312 + 2 * j)%nat)) (tempered (x' (313 + 2 * j)%nat))) ->
  s mod 2 ^ 64 = s' mod 2 ^ 64.
Proof. exact same_seed. Qed.
Print Assumptions C110_different_seeds_partial.
(** C110: two threads whose first 312 UUIDs are the same were given the same value by random_device. *)
Theorem C110_different_values_partial : forall m schedule a b ka kb v v' ra rb,
  steps_of a schedule = repeat None ka ++ Some v :: ra -> steps_of b schedule = repeat None kb ++ Some v' :: rb ->
  v < 2 ^ 32 -> v' < 2 ^ 32 ->
  (312 <= length (uuids (made_by m schedule a)))%nat ->
  firstn 312 (uuids (made_by m schedule a)) = firstn 312 (uuids (made_by m schedule b)) -> v = v'.
Proof. exact different_values. Qed.
Print Assumptions C110_different_values_partial.
Example C110_nonvacuous : forall m,
  (exists schedule ra rb, steps_of 0 schedule = repeat None 0 ++ Some 7 :: ra /\ steps_of 1 schedule = repeat None 0 ++ Some 9 :: rb /\
     length (uuids (made_by m schedule 0)) = 312%nat /\ length (uuids (made_by m schedule 1)) = 312%nat) /\
  (exists schedule ts, NoDup ts /\ 2 ^ 32 < lenN ts /\ forall t, In t ts -> uuids (made_by m schedule t) <> []) /\
  uuid_random little 0 0 = uuid_random little (2 ^ 52) (2 ^ 6) /\ uuid_random little 0 0 <> uuid_random little (2 ^ 51) 0 /\
  uuid_random big 0 0 = uuid_random big (2 ^ 12) (2 ^ 63) /\ uuid_random big 0 0 <> uuid_random big 0 (2 ^ 61).
Proof. intros m. split; [exact (long_threads m 7 9)|]. split; [exact (many_threads m)|]. repeat split; try (vm_compute; reflexivity); intros H; vm_compute in H; discriminate H. Qed.
