(** C95, C96: unchecked conversion of hexadecimal text, and laws of the text. *)
From Coq Require Import List. Import ListNotations.
From Verif Require Import Base Hex_Model Hex_Spec HexText_Spec HexText_Proofs.

(** C95.  The unchecked functions give one byte per pair, 0xFF for a pair that is not two digits ... *)
Theorem C95_any_text : forall w n s, (2 * n <= length s)%nat ->
  exists bs, unsafe_unhexlify w n s = Ok bs /\ unsafe_from_hex_chars w n s = Ok bs /\ pairs s n bs.
Proof. exact unsafe_any. Qed.
Print Assumptions C95_any_text.
(** ... are undefined exactly if the text is too short ... *)
Theorem C95_too_short : forall w n s, (length s < 2 * n)%nat -> unsafe_unhexlify w n s = UB /\ unsafe_from_hex_chars w n s = UB.
Proof. exact unsafe_short. Qed.
Print Assumptions C95_too_short.
(** ... and agree with the checked one where it succeeds. *)
Theorem C95_agrees : forall w n s bs, unhexlify_n w n s = Ok bs -> unsafe_unhexlify w n s = Ok bs /\ unsafe_from_hex_chars w n s = Ok bs.
Proof. exact unsafe_agrees. Qed.
Print Assumptions C95_agrees.
(** "4!a1.", read as two bytes *)
Example C95_nonvacuous : unsafe_unhexlify narrow 2 [52; 33; 97; 49; 46] = Ok [xff; xa1] /\ unhexlify_n narrow 1 [97; 49] = Ok [xa1].
Proof. split; reflexivity. Qed.

(** C96.  Text of a concatenation ... *)
Theorem C96_hexlify_concat : forall a b, exists s t, hexlify a = Ok s /\ hexlify b = Ok t /\ hexlify (a ++ b) = Ok (s ++ t).
Proof. exact hexlify_app. Qed.
Print Assumptions C96_hexlify_concat.
Theorem C96_unhexlify_concat : forall w s t, Nat.Even (length s) -> unhexlify w (s ++ t) =
  match unhexlify w s with Ok a => match unhexlify w t with Ok b => Ok (a ++ b) | e => e end | e => e end.
Proof. exact unhexlify_app. Qed.
Print Assumptions C96_unhexlify_concat.
(** ... the case of the digits does not matter and comes back as upper case ... *)
Theorem C96_case : forall w s, unhexlify w (map upper_hex s) = unhexlify w s.
Proof. exact unhexlify_upper. Qed.
Print Assumptions C96_case.
Theorem C96_normal_form : forall w s bs, Nat.Even (length s) -> unhexlify w s = Ok bs -> hexlify bs = Ok (map upper_hex s).
Proof. exact unhexlify_hexlify. Qed.
Print Assumptions C96_normal_form.
(** ... and texts sort as the bytes do. *)
Theorem C96_order : forall a b s t, hexlify a = Ok s -> hexlify b = Ok t ->
  (dict_less s t <-> dict_less (map Byte.to_N a) (map Byte.to_N b)) /\ (s = t <-> a = b).
Proof. exact hexlify_order. Qed.
Print Assumptions C96_order.
Example C96_nonvacuous : hexlify [x09; xff] = Ok [48; 57; 70; 70] /\ hexlify [x0a] = Ok [48; 65] /\
  dict_less [48; 57; 70; 70] [48; 65] /\ dict_less [9; 255] [10] /\
  Nat.Even (length [102; 70]) /\ unhexlify wide [102; 70] = Ok [xff] /\ map upper_hex [102; 70] = [70; 70].
Proof.
  split; [reflexivity|]. split; [reflexivity|]. split; [apply less_later, less_here; reflexivity|]. split; [apply less_here; reflexivity|].
  split; [now exists 1%nat|]. split; reflexivity.
Qed.
