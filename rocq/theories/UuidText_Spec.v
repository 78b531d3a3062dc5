(** Case, formats and order of UUID text. *)
From Verif Require Import Base Hex_Spec Uuid_Spec.

(** The letters a - f in upper ([up]) or lower case; other characters stay. *)
Definition recase (up : bool) (c : N) : N :=
  if up then (if (97 <=? c) && (c <=? 102) then c - 32 else c)
  else (if (65 <=? c) && (c <=? 70) then c + 32 else c).

(** Dictionary order of texts of equal length: the first difference decides. *)
Definition text_before (a b : list N) : Prop :=
  exists i x y, firstn i a = firstn i b /\ nth_error a i = Some x /\ nth_error b i = Some y /\ x < y.

(** The hex digits of a text in order, without the 0 of a "0x". *)
Fixpoint bare_digits (s : list N) : list N :=
  match s with
  | [] => []
  | c :: r =>
      (match hex_value c, r with
       | None, _ => []
       | Some _, d :: _ => if (c =? 48) && (d =? 120) then [] else [c]
       | Some _, [] => [c]
       end) ++ bare_digits r
  end.
