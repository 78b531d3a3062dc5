(** Model of wite/binascii/hexlify.hpp.  Paths are relative to /repo.
    A character is its unsigned code unit, an [N]; [narrow] strings have code
    units below 256, [wide] (wchar_t) ones below 2^32.  The tables are copied
    from the source text. *)
From Verif Require Import Base.
From Coq Require Import Ascii String List.
Open Scope N_scope. Open Scope list_scope.

(** Model only, no counterpart in the code: the code of a character literal. *)
Definition ch (s : string) : N := match s with String a _ => N_of_ascii a | EmptyString => 0 end.
(** Model only, no counterpart in the code: the codes of a string literal. *)
Fixpoint codes (s : string) : list N :=
  match s with EmptyString => [] | String a r => N_of_ascii a :: codes r end.

(** wite/binascii/hexlify.hpp:32-512: the Char_T template parameter: char or wchar_t. *)
Inductive cwidth := narrow | wide.

(** wite/binascii/hexlify.hpp:29-30 (valid_hex_chars, valid_hex_wchars). *)
Definition valid_hex_chars : list N := codes "0123456789ABCDEFabcdef".
(** wite/binascii/hexlify.hpp:30. *)
Definition valid_hex_wchars : list N := codes "0123456789ABCDEFabcdef".

(** hexlify.hpp:32-39: find_first_not_of finds nothing. *)
Definition is_all_valid_hex_chars (w : cwidth) (s : list N) : bool :=
  forallb (fun c => existsb (N.eqb c) (match w with narrow => valid_hex_chars | wide => valid_hex_wchars end)) s.

(** hexlify.hpp:41. *)
Inductive hex_error := invalid_sequence_length | invalid_hex_char.

(** hexlify.hpp:53-70 (upper_case_bytes). *)
Definition upper_case_bytes : list string := [
   "00"; "01"; "02"; "03"; "04"; "05"; "06"; "07"; "08"; "09"; "0A"; "0B"; "0C"; "0D"; "0E"; "0F";
   "10"; "11"; "12"; "13"; "14"; "15"; "16"; "17"; "18"; "19"; "1A"; "1B"; "1C"; "1D"; "1E"; "1F";
   "20"; "21"; "22"; "23"; "24"; "25"; "26"; "27"; "28"; "29"; "2A"; "2B"; "2C"; "2D"; "2E"; "2F";
   "30"; "31"; "32"; "33"; "34"; "35"; "36"; "37"; "38"; "39"; "3A"; "3B"; "3C"; "3D"; "3E"; "3F";
   "40"; "41"; "42"; "43"; "44"; "45"; "46"; "47"; "48"; "49"; "4A"; "4B"; "4C"; "4D"; "4E"; "4F";
   "50"; "51"; "52"; "53"; "54"; "55"; "56"; "57"; "58"; "59"; "5A"; "5B"; "5C"; "5D"; "5E"; "5F";
   "60"; "61"; "62"; "63"; "64"; "65"; "66"; "67"; "68"; "69"; "6A"; "6B"; "6C"; "6D"; "6E"; "6F";
   "70"; "71"; "72"; "73"; "74"; "75"; "76"; "77"; "78"; "79"; "7A"; "7B"; "7C"; "7D"; "7E"; "7F";
   "80"; "81"; "82"; "83"; "84"; "85"; "86"; "87"; "88"; "89"; "8A"; "8B"; "8C"; "8D"; "8E"; "8F";
   "90"; "91"; "92"; "93"; "94"; "95"; "96"; "97"; "98"; "99"; "9A"; "9B"; "9C"; "9D"; "9E"; "9F";
   "A0"; "A1"; "A2"; "A3"; "A4"; "A5"; "A6"; "A7"; "A8"; "A9"; "AA"; "AB"; "AC"; "AD"; "AE"; "AF";
   "B0"; "B1"; "B2"; "B3"; "B4"; "B5"; "B6"; "B7"; "B8"; "B9"; "BA"; "BB"; "BC"; "BD"; "BE"; "BF";
   "C0"; "C1"; "C2"; "C3"; "C4"; "C5"; "C6"; "C7"; "C8"; "C9"; "CA"; "CB"; "CC"; "CD"; "CE"; "CF";
   "D0"; "D1"; "D2"; "D3"; "D4"; "D5"; "D6"; "D7"; "D8"; "D9"; "DA"; "DB"; "DC"; "DD"; "DE"; "DF";
   "E0"; "E1"; "E2"; "E3"; "E4"; "E5"; "E6"; "E7"; "E8"; "E9"; "EA"; "EB"; "EC"; "ED"; "EE"; "EF";
   "F0"; "F1"; "F2"; "F3"; "F4"; "F5"; "F6"; "F7"; "F8"; "F9"; "FA"; "FB"; "FC"; "FD"; "FE"; "FF"]%string.

(** hexlify.hpp:98 (_invalid_nibble). *)
Definition invalid_nibble : N := 0xFF.

(** hexlify.hpp:102-145. *)
Definition low_nibble_narrow (c : N) : N :=
  if c =? ch "0" then 0x00
  else if c =? ch "1" then 0x01
  else if c =? ch "2" then 0x02
  else if c =? ch "3" then 0x03
  else if c =? ch "4" then 0x04
  else if c =? ch "5" then 0x05
  else if c =? ch "6" then 0x06
  else if c =? ch "7" then 0x07
  else if c =? ch "8" then 0x08
  else if c =? ch "9" then 0x09
  else if c =? ch "A" then 0x0A
  else if c =? ch "a" then 0x0A
  else if c =? ch "B" then 0x0B
  else if c =? ch "b" then 0x0B
  else if c =? ch "C" then 0x0C
  else if c =? ch "c" then 0x0C
  else if c =? ch "D" then 0x0D
  else if c =? ch "d" then 0x0D
  else if c =? ch "E" then 0x0E
  else if c =? ch "e" then 0x0E
  else if c =? ch "F" then 0x0F
  else if c =? ch "f" then 0x0F
  else invalid_nibble.

(** hexlify.hpp:149-192. *)
Definition low_nibble_wide (c : N) : N :=
  if c =? ch "0" then 0x00
  else if c =? ch "1" then 0x01
  else if c =? ch "2" then 0x02
  else if c =? ch "3" then 0x03
  else if c =? ch "4" then 0x04
  else if c =? ch "5" then 0x05
  else if c =? ch "6" then 0x06
  else if c =? ch "7" then 0x07
  else if c =? ch "8" then 0x08
  else if c =? ch "9" then 0x09
  else if c =? ch "A" then 0x0A
  else if c =? ch "a" then 0x0A
  else if c =? ch "B" then 0x0B
  else if c =? ch "b" then 0x0B
  else if c =? ch "C" then 0x0C
  else if c =? ch "c" then 0x0C
  else if c =? ch "D" then 0x0D
  else if c =? ch "d" then 0x0D
  else if c =? ch "E" then 0x0E
  else if c =? ch "e" then 0x0E
  else if c =? ch "F" then 0x0F
  else if c =? ch "f" then 0x0F
  else invalid_nibble.

(** hexlify.hpp:196-239. *)
Definition high_nibble_narrow (c : N) : N :=
  if c =? ch "0" then 0x00
  else if c =? ch "1" then 0x10
  else if c =? ch "2" then 0x20
  else if c =? ch "3" then 0x30
  else if c =? ch "4" then 0x40
  else if c =? ch "5" then 0x50
  else if c =? ch "6" then 0x60
  else if c =? ch "7" then 0x70
  else if c =? ch "8" then 0x80
  else if c =? ch "9" then 0x90
  else if c =? ch "A" then 0xA0
  else if c =? ch "a" then 0xA0
  else if c =? ch "B" then 0xB0
  else if c =? ch "b" then 0xB0
  else if c =? ch "C" then 0xC0
  else if c =? ch "c" then 0xC0
  else if c =? ch "D" then 0xD0
  else if c =? ch "d" then 0xD0
  else if c =? ch "E" then 0xE0
  else if c =? ch "e" then 0xE0
  else if c =? ch "F" then 0xF0
  else if c =? ch "f" then 0xF0
  else invalid_nibble.

(** hexlify.hpp:243-286. *)
Definition high_nibble_wide (c : N) : N :=
  if c =? ch "0" then 0x00
  else if c =? ch "1" then 0x10
  else if c =? ch "2" then 0x20
  else if c =? ch "3" then 0x30
  else if c =? ch "4" then 0x40
  else if c =? ch "5" then 0x50
  else if c =? ch "6" then 0x60
  else if c =? ch "7" then 0x70
  else if c =? ch "8" then 0x80
  else if c =? ch "9" then 0x90
  else if c =? ch "A" then 0xA0
  else if c =? ch "a" then 0xA0
  else if c =? ch "B" then 0xB0
  else if c =? ch "b" then 0xB0
  else if c =? ch "C" then 0xC0
  else if c =? ch "c" then 0xC0
  else if c =? ch "D" then 0xD0
  else if c =? ch "d" then 0xD0
  else if c =? ch "E" then 0xE0
  else if c =? ch "e" then 0xE0
  else if c =? ch "F" then 0xF0
  else if c =? ch "f" then 0xF0
  else invalid_nibble.

(** wite/binascii/hexlify.hpp:102-193: the overload for the character type. *)
Definition low_nibble (w : cwidth) (c : N) : N :=
  match w with narrow => low_nibble_narrow c | wide => low_nibble_wide c end.
(** wite/binascii/hexlify.hpp:196-288: the overload for the character type. *)
Definition high_nibble (w : cwidth) (c : N) : N :=
  match w with narrow => high_nibble_narrow c | wide => high_nibble_wide c end.

(** *read_pos and *std::next(read_pos): outside the characters of the view is undefined. *)
Definition deref (s : list N) (pos : N) : outcome N :=
  match nth_error s (N.to_nat pos) with Some c => Ok c | None => UB end.

(** hexlify.hpp:294-307 (unsafe_from_hex_chars).  The result is the object
    representation of the returned Result_T, [n] bytes still to be written. *)
Fixpoint from_hex_loop (w : cwidth) (s : list N) (n : nat) (read_pos : N) : outcome (list byte) :=
  match n with
  | O => Ok []
  | S n' =>
      let! h := deref s read_pos in
      let! l := deref s (read_pos + 1) in
      let b := byte_of_N (N.lor (high_nibble w h) (low_nibble w l)) in
      let! r := from_hex_loop w s n' (read_pos + 2) in
      Ok (b :: r)
  end.
(** wite/binascii/hexlify.hpp:294-307. *)
Definition unsafe_from_hex_chars (w : cwidth) (size : nat) (s : list N) : outcome (list byte) :=
  from_hex_loop w s size 0.

(** hexlify.hpp:312-336 (from_hex_chars, both overloads). *)
Definition from_hex_chars (w : cwidth) (size : nat) (s : list N) : outcome (list byte) :=
  if negb (lenN s =? 2 * N.of_nat size) then Throw invalid_argument
  else if negb (is_all_valid_hex_chars w s) then Throw invalid_argument
  else unsafe_from_hex_chars w size s.

(** hexlify.hpp:341-365 (try_from_hex_chars, both overloads, noexcept). *)
Definition try_from_hex_chars (w : cwidth) (size : nat) (s : list N)
  : outcome (result (list byte) hex_error) :=
  if negb (lenN s =? 2 * N.of_nat size) then Ok (RErr invalid_sequence_length)
  else if negb (is_all_valid_hex_chars w s) then Ok (RErr invalid_hex_char)
  else noexcept (omap RVal (unsafe_from_hex_chars w size s)).

(** *write_pos = c; ++write_pos on a string: outside it is undefined. *)
(** wite/binascii/hexlify.hpp:370-385: *)
Definition put (s : list N) (pos c : N) : outcome (list N) :=
  if pos <? lenN s then Ok (takeN pos s ++ c :: dropN (pos + 1) s) else UB.

(** wite/binascii/hexlify.hpp:53-96, 376: chars[i] of a table entry (a NUL-terminated literal). *)
Definition table_char (e : string) (i : nat) : N := nth i (codes e) 0.

(** hexlify.hpp:370-385 (hexlify): the loop over the bytes; [out] is the string
    under construction. *)
Fixpoint hexlify_loop (bytes : list byte) (out : list N) (write_pos : N) : outcome (list N) :=
  match bytes with
  | [] => Ok out
  | b :: r =>
      match nth_error upper_case_bytes (N.to_nat (Byte.to_N b)) with
      | None => UB
      | Some chars =>
          let! out1 := put out write_pos (table_char chars 0) in
          let! out2 := put out1 (write_pos + 1) (table_char chars 1) in
          hexlify_loop r out2 (write_pos + 2)
      end
  end.
(** wite/binascii/hexlify.hpp:370-385. *)
Definition hexlify (bytes : list byte) : outcome (list N) :=
  hexlify_loop bytes (repeat 0 (2 * length bytes)) 0.

(** hexlify.hpp:391-413 (unhexlify to a dynamic buffer, both overloads): the loop
    over the [n] bytes of the output. *)
Definition sub_view (s : list N) (pos : N) : outcome (list N) :=
  if pos + 2 <=? lenN s then Ok (takeN 2 (dropN pos s)) else UB.
(** wite/binascii/hexlify.hpp:391-413. *)
Fixpoint unhexlify_loop (w : cwidth) (s : list N) (n : nat) (read_pos : N) : outcome (list byte) :=
  match n with
  | O => Ok []
  | S n' =>
      let! v := sub_view s read_pos in
      let! b := from_hex_chars w 1 v in
      let! r := unhexlify_loop w s n' (read_pos + 2) in
      Ok (b ++ r)
  end.
(** wite/binascii/hexlify.hpp:391-413. *)
Definition unhexlify (w : cwidth) (s : list N) : outcome (list byte) :=
  unhexlify_loop w s (N.to_nat (lenN s / 2)) 0.

(** hexlify.hpp:418-444 (unsafe_unhexlify<N>, both overloads). *)
Fixpoint unsafe_unhexlify_loop (w : cwidth) (s : list N) (n : nat) (read_pos : N) : outcome (list byte) :=
  match n with
  | O => Ok []
  | S n' =>
      let! v := sub_view s read_pos in
      let! b := unsafe_from_hex_chars w 1 v in
      let! r := unsafe_unhexlify_loop w s n' (read_pos + 2) in
      Ok (b ++ r)
  end.
(** wite/binascii/hexlify.hpp:418-444. *)
Definition unsafe_unhexlify (w : cwidth) (n : nat) (s : list N) : outcome (list byte) :=
  unsafe_unhexlify_loop w s n 0.

(** hexlify.hpp:449-475 (unhexlify<N>, both overloads). *)
Definition unhexlify_n (w : cwidth) (n : nat) (s : list N) : outcome (list byte) :=
  if negb (lenN s =? 2 * N.of_nat n) then Throw invalid_argument
  else if negb (is_all_valid_hex_chars w s) then Throw invalid_argument
  else unsafe_unhexlify w n s.

(** hexlify.hpp:480-508 (try_unhexlify<N>, both overloads, noexcept). *)
Definition try_unhexlify_n (w : cwidth) (n : nat) (s : list N)
  : outcome (result (list byte) hex_error) :=
  if negb (lenN s =? 2 * N.of_nat n) then Ok (RErr invalid_sequence_length)
  else if negb (is_all_valid_hex_chars w s) then Ok (RErr invalid_hex_char)
  else noexcept (omap RVal (unsafe_unhexlify w n s)).
