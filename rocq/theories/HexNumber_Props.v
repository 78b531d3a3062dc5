(** C121: hexadecimal text and the numbers it stands for. *)
From Coq Require Import List. Import ListNotations.
From Verif Require Import Base Io_Model Io_Spec Hex_Model Hex_Spec HexText_Spec HexNumber_Spec HexNumber_Proofs.
Local Open Scope N_scope.

(** C121: hexlify(to_bytes(big_endian{z})) is z in hexadecimal, in two's complement for negative z, with all leading
    zeros and upper-case digits. *)
Theorem C121_text : forall m n sg z, typed (TEnc big n sg) (VInt z) -> N.of_nat n < size_mod ->
  exists b s, to_bytes (Env m m) (TEnc big n sg) (VInt z) = Ok b /\ hexlify b = Ok s /\
    length s = (2 * n)%nat /\ Forall upper_hex_digit s /\ hex_number s = Some (Z.to_N (z mod 2 ^ (8 * Z.of_nat n))).
Proof. exact value_text. Qed.
Print Assumptions C121_text.

(** C121: every text of 2n hex digits is unhexlified to bytes from which from_bytes<big_endian<T>> reads the number
    the text stands for (the value of T with these bits). *)
Theorem C121_value : forall w m n sg s x,
  (0 < n)%nat -> N.of_nat n < size_mod -> length s = (2 * n)%nat -> hex_number s = Some x ->
  exists b v, unhexlify w s = Ok b /\ unhexlify_n w n s = Ok b /\ from_bytes (Env m m) (TEnc big n sg) b = Ok [VInt v] /\
    typed (TEnc big n sg) (VInt v) /\ (v mod 2 ^ (8 * Z.of_nat n) = Z.of_N x)%Z.
Proof. exact text_value. Qed.
Print Assumptions C121_value.

(** C121: from_hex_chars<T> of the same text is that number on a big-endian machine; on a little-endian one it is
    the number written with the pairs of digits in reverse order. *)
Theorem C121_from_hex_chars : forall w m n sg s x,
  (0 < n)%nat -> N.of_nat n < size_mod -> length s = (2 * n)%nat ->
  hex_number (match m with big => s | little => reverse_pairs s end) = Some x ->
  exists b v, from_hex_chars w n s = Ok b /\ try_from_hex_chars w n s = Ok (RVal b) /\
    from_bytes (Env m m) (TPlain (SInt n sg)) b = Ok [VInt v] /\
    typed (TPlain (SInt n sg)) (VInt v) /\ (v mod 2 ^ (8 * Z.of_nat n) = Z.of_N x)%Z.
Proof. exact chars_value. Qed.
Print Assumptions C121_from_hex_chars.

(** C121: the texts of unsigned numbers of one type are in dictionary order exactly if the numbers are in order. *)
Theorem C121_order : forall m n y z,
  typed (TEnc big n false) (VInt y) -> typed (TEnc big n false) (VInt z) -> N.of_nat n < size_mod ->
  exists a b s t, to_bytes (Env m m) (TEnc big n false) (VInt y) = Ok a /\ hexlify a = Ok s /\
    to_bytes (Env m m) (TEnc big n false) (VInt z) = Ok b /\ hexlify b = Ok t /\
    ((y < z)%Z <-> dict_less s t) /\ (y = z <-> s = t).
Proof. exact text_order. Qed.
Print Assumptions C121_order.

(** uint16_t 0xBADC ("BADC"), int16_t -2 ("FFFE") and the example of the library's tests, from_hex_chars<uint16_t>("BadC"). *)
Example C121_nonvacuous :
  to_bytes (Env little little) (TEnc big 2 false) (VInt 0xBADC) = Ok [xba; xdc] /\
  hexlify [xba; xdc] = Ok [66; 65; 68; 67] /\ hex_number [66; 65; 68; 67] = Some 0xBADC /\
  to_bytes (Env little little) (TEnc big 2 true) (VInt (-2)) = Ok [xff; xfe] /\
  hex_number [70; 70; 70; 69] = Some (2 ^ 16 - 2) /\
  from_bytes (Env big big) (TEnc big 2 true) [xff; xfe] = Ok [VInt (-2)] /\
  reverse_pairs [66; 97; 100; 67] = [100; 67; 66; 97] /\ hex_number [100; 67; 66; 97] = Some 0xDCBA /\
  from_hex_chars narrow 2 [66; 97; 100; 67] = Ok [xba; xdc] /\
  from_bytes (Env little little) (TPlain (SInt 2 false)) [xba; xdc] = Ok [VInt 0xDCBA] /\
  hex_number [71] = None.
Proof. repeat split; reflexivity. Qed.
