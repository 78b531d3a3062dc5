(** Where objects lie in memory, and what a piece of memory holds. *)
From Coq Require Import List. Import ListNotations.
From Verif Require Import Base UuidPlace_Model.
Local Open Scope N_scope.

(** The bytes from address [a] on are [bs]. *)
Definition holds (mem : memory) (a : N) (bs : list byte) : Prop :=
  forall i b, nth_error bs i = Some b -> mem (a + N.of_nat i) = b.

(** Nothing changed but the [n] bytes from address [a] on. *)
Definition changed_only (mem mem' : memory) (a n : N) : Prop :=
  forall x, x < a \/ a + n <= x -> mem' x = mem x.

(** What alignof(uint64_t) can be: a power of 2 that divides its size. *)
Definition word_alignment (al : N) : Prop := al = 1 \/ al = 2 \/ al = 4 \/ al = 8.

(** [a] is an address for objects with alignment [al]. *)
Definition aligned (al a : N) : Prop := exists k, a = al * k.

(** Members of a struct, each given by size and alignment, are laid out in order, each at the first address
    aligned for it.  [member_after ms o]: [o] is the first address, counted from the start of the struct,
    after the members [ms].  A uuid, which has alignment 1 as its bytes have, comes right there. *)
Inductive member_after : list (N * N) -> N -> Prop :=
| ma_none : member_after [] 0
| ma_next ms o size al p :
    member_after ms o -> o <= p -> aligned al p -> (forall q, o <= q -> aligned al q -> p <= q) ->
    member_after (ms ++ [(size, al)]) (p + size).
