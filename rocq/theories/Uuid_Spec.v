(** What UUID text is: written from the documented formats, without reference to
    the printing and parsing code. *)
From Verif Require Import Base Hex_Model Hex_Spec.
From Coq Require Import Ascii String List. Import ListNotations.
Open Scope N_scope. Open Scope list_scope.

Definition txt (s : string) : list N := map N_of_ascii (list_ascii_of_string s).
Definition chr (a : ascii) : N := N_of_ascii a.

(** The format letters. *)
Inductive uformat := FN | FD | FB | FP | FX.
Definition upper_letter (f : uformat) : N :=
  chr (match f with FN => "N" | FD => "D" | FB => "B" | FP => "P" | FX => "X" end)%char.
Definition lower_letter (f : uformat) : N :=
  chr (match f with FN => "n" | FD => "d" | FB => "b" | FP => "p" | FX => "x" end)%char.
(** The letter of a format with upper- or lower-case digits. *)
Definition letter (upper : bool) (f : uformat) : N := if upper then upper_letter f else lower_letter f.

(** The pieces of a UUID's 32 digits: the digits [i, i+n). *)
Definition part (ds : list N) (i n : nat) : list N := firstn n (skipn i ds).

(** 32 digits laid out in a format. *)
Definition dashed (ds : list N) : list N :=
  part ds 0 8 ++ txt "-" ++ part ds 8 4 ++ txt "-" ++ part ds 12 4 ++ txt "-" ++ part ds 16 4
  ++ txt "-" ++ part ds 20 12.
Definition layout (f : uformat) (ds : list N) : list N :=
  match f with
  | FN => ds
  | FD => dashed ds
  | FB => txt "{" ++ dashed ds ++ txt "}"
  | FP => txt "(" ++ dashed ds ++ txt ")"
  | FX => txt "{0x" ++ part ds 0 8 ++ txt ",0x" ++ part ds 8 4 ++ txt ",0x" ++ part ds 12 4
          ++ txt ",{0x" ++ part ds 16 2 ++ txt ",0x" ++ part ds 18 2 ++ txt ",0x" ++ part ds 20 2
          ++ txt ",0x" ++ part ds 22 2 ++ txt ",0x" ++ part ds 24 2 ++ txt ",0x" ++ part ds 26 2
          ++ txt ",0x" ++ part ds 28 2 ++ txt ",0x" ++ part ds 30 2 ++ txt "}}"
  end.

Definition format_length (f : uformat) : N :=
  match f with FN => 32 | FD => 36 | FB | FP => 38 | FX => 68 end.

(** A stored UUID is 16 bytes; data_1 (4 bytes), data_2 and data_3 (2 bytes each)
    are stored least significant byte first, data_4 is 8 single bytes.  In text
    order every field is most significant byte first. *)
Definition is_uuid (u : list byte) : Prop := length u = 16%nat.
Definition text_order (u : list byte) : list byte :=
  map (fun i => nth i u x00) [3; 2; 1; 0; 5; 4; 7; 6; 8; 9; 10; 11; 12; 13; 14; 15]%nat.

(** Digits with value 0 to 15. *)
Definition lower_digit (n : N) : N := if n <? 10 then 48 + n else 87 + n.
Definition digit (upper : bool) (n : N) : N := if upper then upper_digit n else lower_digit n.

(** The text of a UUID. *)
Definition uuid_digits (upper : bool) (u : list byte) : list N :=
  flat_map (fun b => [digit upper (Byte.to_N b / 16); digit upper (Byte.to_N b mod 16)]) (text_order u).
Definition uuid_text (upper : bool) (f : uformat) (u : list byte) : list N :=
  layout f (uuid_digits upper u).

(** [s] is well-formed text of format [f] standing for [u]: 32 hex digits of either
    case in the format's layout, denoting the bytes of [u] in text order. *)
Definition text_of (f : uformat) (s : list N) (u : list byte) : Prop :=
  is_uuid u /\ exists ds, s = layout f ds /\ denotes ds (text_order u).
Definition well_formed (f : uformat) (s : list N) : Prop :=
  exists ds, s = layout f ds /\ length ds = 32%nat /\ Forall is_hex ds.

(** The [w] hex digits of [v], most significant first. *)
Definition is_hex_number (upper : bool) (w : nat) (v : Z) (s : list N) : Prop :=
  length s = w /\
  forall i, (i < w)%nat ->
    nth_error s i = Some (digit upper (Z.to_N ((v / 16 ^ Z.of_nat (w - 1 - i)) mod 16))).

(** The positions of [s] that hold a hex digit which is not the 0 of a "0x". *)
Fixpoint digit_positions (s : list N) : N :=
  match s with
  | [] => 0
  | c :: r =>
      (match hex_value c, r with
       | None, _ => 0
       | Some _, d :: _ => if (c =? 48) && (d =? 120) then 0 else 1
       | Some _, [] => 1
       end) + digit_positions r
  end.

(** The last character is '0'. *)
Definition ends_with_0 (s : list N) : Prop := exists r, s = r ++ [48].

(** Characters below 256, as all narrow characters are. *)
Definition latin1 (s : list N) : Prop := Forall (fun c => c < 256) s.
(** Text whose characters std::isxdigit is defined for: unsigned char values and, for wide text, EOF (the character 0xFFFFFFFF). *)
Definition checkable (w : cwidth) (s : list N) : Prop := Forall (fun c => c < 256 \/ (w = wide /\ c = 0xFFFFFFFF)) s.
(** The delimiters of the format are where they belong, and 32 characters of any kind elsewhere. *)
Definition delimited (f : uformat) (s : list N) : Prop := exists ds, s = layout f ds /\ length ds = 32%nat.

(** Bytes as consecutive digit pairs. *)
Definition bytes_text (upper : bool) (bs : list byte) : list N :=
  flat_map (fun b => [digit upper (Byte.to_N b / 16); digit upper (Byte.to_N b mod 16)]) bs.

(** Field ranges: uint32_t, uint16_t, uint16_t, eight bytes. *)
Definition fields_ok (d1 d2 d3 : Z) (d4 : list byte) : Prop :=
  (0 <= d1 < 2 ^ 32)%Z /\ (0 <= d2 < 2 ^ 16)%Z /\ (0 <= d3 < 2 ^ 16)%Z /\ length d4 = 8%nat.

(** Byte-wise lexicographic order: the first difference decides. *)
Definition lex_before (a b : list byte) : Prop :=
  exists i x y, firstn i a = firstn i b /\ nth_error a i = Some x /\ nth_error b i = Some y /\
                Byte.to_N x < Byte.to_N y.
