(** Hexadecimal text: pairs of any characters, case and dictionary order. *)
From Verif Require Import Base Hex_Spec.

(** The byte two characters give: their value, and 0xFF if one is not a digit. *)
Definition pair_byte (h l : N) (b : byte) : Prop :=
  match hex_value h, hex_value l with
  | Some x, Some y => Byte.to_N b = 16 * x + y
  | _, _ => b = xff
  end.
(** [bs] are the bytes of the first 2 * n characters of [s]. *)
Definition pairs (s : list N) (n : nat) (bs : list byte) : Prop :=
  length bs = n /\ forall i, (i < n)%nat -> exists h l b,
    nth_error s (2 * i) = Some h /\ nth_error s (2 * i + 1) = Some l /\ nth_error bs i = Some b /\ pair_byte h l b.

(** a - f as A - F, other characters unchanged. *)
Definition upper_hex (c : N) : N := if (97 <=? c) && (c <=? 102) then c - 32 else c.

(** Dictionary order. *)
Inductive dict_less : list N -> list N -> Prop :=
| less_ends y b : dict_less [] (y :: b)
| less_here x y a b : x < y -> dict_less (x :: a) (y :: b)
| less_later x a b : dict_less a b -> dict_less (x :: a) (x :: b).
