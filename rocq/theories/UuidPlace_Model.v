(** Model of uuid(engine) and std::hash<uuid> on a uuid object at an address in memory: both
    use the object's bytes through pointers to uint64_t. *)
From Coq Require Import List. Import ListNotations.
From Verif Require Import Base Io_Model Uuid_Model.
Local Open Scope N_scope.

(** C++ language (Standard, [intro.memory]). Memory: the byte at each address.  Simplification: addresses
    do not wrap; an object lies in memory as a whole. *)
Definition memory := N -> byte.

(** C++ language (Standard). The [n] bytes from address [a] on. *)
Fixpoint load_bytes (mem : memory) (a : N) (n : nat) : list byte :=
  match n with O => [] | S n' => mem a :: load_bytes mem (a + 1) n' end.

(** C++ language (Standard). Memory after [bs] was stored from address [a] on. *)
Fixpoint store_bytes (mem : memory) (a : N) (bs : list byte) : memory :=
  match bs with
  | [] => mem
  | b :: bs' => store_bytes (fun x => if x =? a then b else mem x) (a + 1) bs'
  end.

(** C++ language (Standard, [basic.align] 1, [expr.static.cast] 14, [expr.reinterpret.cast] 7). Whether an
    address is one a pointer to uint64_t can have; [al] is alignof(uint64_t).  With any other address the
    value of the pointer is unspecified and using it is undefined.  Simplification: aliasing is taken to be
    allowed, as every compiler can be told to. *)
Definition word_place (al a : N) : bool := a mod al =? 0.

(** C++ language (Standard). *p = w for a uint64_t pointer [p] with address [a]. *)
Definition store_word (al : N) (m : endian) (mem : memory) (a w : N) : outcome memory :=
  if word_place al a then Ok (store_bytes mem a (int_to_mem m 8 (Z.of_N w))) else UB.

(** C++ language (Standard). *p for a uint64_t pointer [p] with address [a]. *)
Definition load_word (al : N) (m : endian) (mem : memory) (a : N) : outcome Z :=
  if word_place al a then Ok (int_of_mem m 8 false (load_bytes mem a 8)) else UB.

(** wite/core/uuid.hpp:72, 75. data[i] = (data[i] & keep) | set. *)
Definition mark_byte (mem : memory) (a i keep set : N) : memory :=
  store_bytes mem (a + i) [byte_of_N (N.lor (N.land (Byte.to_N (mem (a + i))) keep) set)].

(** wite/core/uuid.hpp:62-76. uuid(engine) for an object at address [a]; [w1] and [w2] are the two words
    the distribution returns.  basic_uuid{} sets the bytes to 0 first (wite/core/uuid/basic_uuid.hpp:62). *)
Definition uuid_engine_at (al : N) (m : endian) (w1 w2 a : N) (mem : memory) : outcome memory :=
  let mem := store_bytes mem a (repeat x00 16) in
  let! mem := store_word al m mem a w1 in
  let mem := mark_byte mem a 6 15 64 in
  let! mem := store_word al m mem (a + 8) w2 in
  Ok (mark_byte mem a 8 63 128).

(** wite/core/uuid.hpp:258-264, wite/core/uuid/uuid_hash.hpp:17-21. std::hash of the uuid at address [a];
    [h] is std::hash<uint64_t>. *)
Definition uuid_hash_at (al : N) (m : endian) (h : Z -> N) (a : N) (mem : memory) : outcome N :=
  let! x := load_word al m mem a in
  let! y := load_word al m mem (a + 8) in
  Ok (N.lxor (h x) (h y)).
