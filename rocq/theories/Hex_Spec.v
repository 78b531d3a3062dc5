(** What hexadecimal text is, independent of the code's tables. *)
From Verif Require Import Base.

(** Value of a hex digit, given as a character code ('0'-'9', 'A'-'F', 'a'-'f'). *)
Definition hex_value (c : N) : option N :=
  if (48 <=? c) && (c <=? 57) then Some (c - 48)
  else if (65 <=? c) && (c <=? 70) then Some (c - 55)
  else if (97 <=? c) && (c <=? 102) then Some (c - 87)
  else None.

Definition is_hex (c : N) : Prop := hex_value c <> None.

(** The upper-case digit with value [n] (0 to 15). *)
Definition upper_digit (n : N) : N := if n <? 10 then 48 + n else 55 + n.

(** [s] is two hex digits per byte of [bs], most significant digit first, and
    nothing else. *)
Definition denotes (s : list N) (bs : list byte) : Prop :=
  length s = (2 * length bs)%nat /\
  forall i b, nth_error bs i = Some b ->
    exists h l hv lv, nth_error s (2 * i)%nat = Some h /\ nth_error s (2 * i + 1)%nat = Some l /\
      hex_value h = Some hv /\ hex_value l = Some lv /\ Byte.to_N b = 16 * hv + lv.
