(** Numbers written in hexadecimal. *)
From Coq Require Import List. Import ListNotations.
From Verif Require Import Base Hex_Spec.
Local Open Scope N_scope.

(** The number a text of hex digits stands for, the most significant digit first. *)
Definition hex_number (s : list N) : option N :=
  fold_left (fun x c => match x, hex_value c with Some x, Some d => Some (16 * x + d) | _, _ => None end) s (Some 0).

(** A digit as hexlify writes it: 0-9 or A-F. *)
Definition upper_hex_digit (c : N) : Prop := exists d, d < 16 /\ c = upper_digit d.

(** The text with its pairs of digits in reverse order. *)
Fixpoint reverse_pairs (s : list N) : list N :=
  match s with h :: l :: r => reverse_pairs r ++ [h; l] | _ => s end.
