(** What random UUIDs are made of: the words of an engine and the words of the
    standard's 64-bit Mersenne twister, as sequences. *)
From Coq Require Import List NArith. Import ListNotations.
From Verif Require Import Base.
Local Open Scope N_scope.

(** Word number [i] of an engine. *)
Fixpoint word {E : Type} (next : E -> N * E) (e : E) (i : nat) : N :=
  match i with O => fst (next e) | S i' => word next (snd (next e)) i' end.
(** The engine after [i] calls. *)
Fixpoint advanced {E : Type} (next : E -> N * E) (e : E) (i : nat) : E :=
  match i with O => e | S i' => advanced next (snd (next e)) i' end.

(** [x] is the sequence of words of std::mt19937_64 seeded with [seed]: the recurrences of the
    C++ standard ([rand.eng.mers]), with its parameters. *)
Definition twister_sequence (seed : N) (x : nat -> N) : Prop :=
  x 0%nat = seed mod 2 ^ 64 /\
  (forall i, (0 < i < 312)%nat ->
     x i = (6364136223846793005 * N.lxor (x (i - 1)%nat) (x (i - 1)%nat / 2 ^ 62) + N.of_nat i) mod 2 ^ 64) /\
  (forall i, let y := (x i / 2 ^ 31) * 2 ^ 31 + x (S i) mod 2 ^ 31 in
     x (i + 312)%nat = N.lxor (x (i + 156)%nat) (N.lxor (y / 2) (if N.even y then 0 else 0xb5026f5aa96619e9))).

(** What operator() makes of a word of the sequence. *)
Definition tempered (x : N) : N :=
  let a := N.lxor x (N.land (x / 2 ^ 29) 0x5555555555555555) in
  let b := N.lxor a (N.land ((a * 2 ^ 17) mod 2 ^ 64) 0x71d67fffeda60000) in
  let c := N.lxor b (N.land ((b * 2 ^ 37) mod 2 ^ 64) 0xfff7eee000000000) in
  N.lxor c (c / 2 ^ 43).

(** What a schedule means for one thread: whether random_device works, and if so with what value, at each of its steps. *)
Definition steps_of (i : nat) (schedule : list (nat * option N)) : list (option N) :=
  map snd (filter (fun s => Nat.eqb (fst s) i) schedule).

(** The bits of the two words that the version and variant replace, by the machine's byte order. *)
Definition replaced_first (m : endian) (i : N) : Prop :=
  match m with little => 52 <= i < 56 | big => 12 <= i < 16 end.
Definition replaced_second (m : endian) (i : N) : Prop :=
  match m with little => 6 <= i < 8 | big => 62 <= i < 64 end.

(** The UUIDs among the results of some calls ([None] is an exception). *)
Definition uuids (l : list (option (list byte))) : list (list byte) :=
  flat_map (fun o => match o with Some u => [u] | None => [] end) l.
