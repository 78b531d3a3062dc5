(** Theorems C36-C39: hexadecimal text. *)
From Verif Require Import Base BaseFacts Hex_Model Hex_Spec Hex_Proofs.
From Coq Require Import List. Import ListNotations.
Open Scope N_scope. Open Scope list_scope.

(** C36. *)
Theorem C36_roundtrip : forall w bytes, exists s, hexlify bytes = Ok s /\
  unhexlify w s = Ok bytes /\ unhexlify_n w (length bytes) s = Ok bytes /\
  try_unhexlify_n w (length bytes) s = Ok (RVal bytes).
Proof. exact hexlify_roundtrip. Qed.
Print Assumptions C36_roundtrip.

Theorem C36_text : forall bytes, exists s, hexlify bytes = Ok s /\ length s = (2 * length bytes)%nat /\
  forall i b, nth_error bytes i = Some b ->
    nth_error s (2 * i)%nat = Some (upper_digit (Byte.to_N b / 16)) /\
    nth_error s (2 * i + 1)%nat = Some (upper_digit (Byte.to_N b mod 16)).
Proof. exact hexlify_text. Qed.
Print Assumptions C36_text.

(** "DE AD" *)
Example C36_nonvacuous : hexlify [xde; xad] = Ok [68; 69; 65; 68]
  /\ unhexlify narrow [100; 69; 65; 68] = Ok [xde; xad].
Proof. split; reflexivity. Qed.

(** C37.  False: a string of odd length is accepted and its last character, hex
    or not, is ignored. *)
Theorem C37_rejects_non_hex_refuted : forall w, exists s bs,
  unhexlify w s = Ok bs /\ ~ exists bs', denotes s bs'.
Proof.
  intros w. exists [52; 50; 33], [x42]. split; [destruct w; reflexivity|].
  intros [bs [L _]]. cbn [length] in L. lia.
Qed.
Print Assumptions C37_rejects_non_hex_refuted.

Theorem C37_even_length_partial : forall w s, Nat.Even (length s) ->
  match unhexlify w s with
  | Ok bs => denotes s bs
  | Throw e => e = invalid_argument /\ ~ exists bs, denotes s bs
  | _ => False
  end.
Proof. exact unhexlify_even. Qed.
Print Assumptions C37_even_length_partial.

Theorem C37_odd_length_partial : forall w s c, Nat.Even (length s) ->
  unhexlify w (s ++ [c]) = unhexlify w s.
Proof. exact unhexlify_odd. Qed.
Print Assumptions C37_odd_length_partial.

Example C37_nonvacuous : Nat.Even (length [52; 50]) /\ unhexlify wide [52; 50] = Ok [x42]
  /\ unhexlify wide [52; 33] = Throw invalid_argument.
Proof. split; [now exists 1%nat|split; reflexivity]. Qed.

(** C38. *)
Theorem C38_unhexlify_n : forall w n s,
  match unhexlify_n w n s with
  | Ok bs => length bs = n /\ denotes s bs
  | Throw e => e = invalid_argument /\ ~ (length s = (2 * n)%nat /\ Forall is_hex s)
  | _ => False
  end.
Proof. 
  intros w n s. pose proof (unhexlify_n_char w n s) as C.
  destruct (unhexlify_n w n s); auto. now rewrite denotes_iff in C.
Qed.
Print Assumptions C38_unhexlify_n.

Theorem C38_try_unhexlify_n : forall w n s,
  match try_unhexlify_n w n s with
  | Ok (RVal bs) => unhexlify_n w n s = Ok bs
  | Ok (RErr e) => unhexlify_n w n s = Throw invalid_argument /\
      e = (if (length s =? 2 * n)%nat then invalid_hex_char else invalid_sequence_length)
  | _ => False
  end.
Proof. exact try_unhexlify_n_char. Qed.
Print Assumptions C38_try_unhexlify_n.

Example C38_nonvacuous : unhexlify_n narrow 2 [52; 50; 97; 70] = Ok [x42; xaf] /\
  try_unhexlify_n wide 1 [52; 50; 97] = Ok (RErr invalid_sequence_length) /\
  try_unhexlify_n wide 1 [52; 0x4E2D] = Ok (RErr invalid_hex_char).
Proof. repeat split. Qed.

(** C39. *)
Theorem C39_from_hex_chars : forall w n s,
  match from_hex_chars w n s with
  | Ok bs => length bs = n /\ denotes s bs
  | Throw e => e = invalid_argument /\ ~ (length s = (2 * n)%nat /\ Forall is_hex s)
  | _ => False
  end.
Proof.
  intros w n s. pose proof (from_hex_chars_char w n s) as C.
  destruct (from_hex_chars w n s); auto. now rewrite denotes_iff in C.
Qed.
Print Assumptions C39_from_hex_chars.

Theorem C39_try_from_hex_chars : forall w n s,
  match try_from_hex_chars w n s with
  | Ok (RVal bs) => from_hex_chars w n s = Ok bs
  | Ok (RErr e) => from_hex_chars w n s = Throw invalid_argument /\
      e = (if (length s =? 2 * n)%nat then invalid_hex_char else invalid_sequence_length)
  | _ => False
  end.
Proof. exact try_from_hex_chars_char. Qed.
Print Assumptions C39_try_from_hex_chars.

(** hexlify of the object representation, then from_hex_chars, is the identity. *)
Theorem C39_to_text_and_back : forall w bytes s,
  hexlify bytes = Ok s -> from_hex_chars w (length bytes) s = Ok bytes.
Proof. exact from_hex_of_text. Qed.
Print Assumptions C39_to_text_and_back.

Example C39_nonvacuous : from_hex_chars narrow 4 [52; 50; 97; 70; 48; 48; 48; 49] = Ok [x42; xaf; x00; x01].
Proof. reflexivity. Qed.
