(** C136: values sent as hexadecimal text. *)
From Coq Require Import List NArith Lia. Import ListNotations.
From Verif Require Import Base Io_Model Io_Spec IoPort_Spec Hex_Model Hex_Spec HexText_Spec HexData_Spec HexData_Proofs.
Open Scope N_scope. Open Scope list_scope.

(** Values of types with a fixed byte order give the same text on every machine, two characters for each byte, and every machine
    gets the values back from it, also if upper and lower case have been exchanged on the way. *)
Theorem C136_any_machine : forall ev1 ev2 w ts vs, configured_right ev1 -> configured_right ev2 ->
  ts <> [] -> Forall portable ts -> Forall2 typed ts vs -> types_size ts < size_mod ->
  exists s, send_text ev1 ts vs = Ok s /\ send_text ev2 ts vs = Ok s /\ lenN s = 2 * types_size ts /\
    forall s', map upper_hex s' = s -> receive_text ev2 w ts s' = Ok vs.
Proof. exact sent_received. Qed.
Print Assumptions C136_any_machine.
(** Values of any types on the same machine and in the same configuration, whatever it is. *)
Theorem C136_same_machine : forall ev w ts vs, ts <> [] -> Forall2 typed ts vs -> types_size ts < size_mod ->
  exists s, send_text ev ts vs = Ok s /\ forall s', map upper_hex s' = s -> receive_text ev w ts s' = Ok vs.
Proof. exact same_machine. Qed.
Print Assumptions C136_same_machine.
(** Text from anywhere (of even length, see C37): the values its digits stand for, std::out_of_range if there are too few digits,
    std::invalid_argument if they are not all hexadecimal digits. *)
Theorem C136_any_text_partial : forall ev w ts s, ts <> [] -> Forall vtype_ok ts -> types_size ts < size_mod -> Nat.Even (length s) ->
  (forall bs, denotes s bs -> if lenN bs <? types_size ts then receive_text ev w ts s = Throw out_of_range
     else exists vs, receive_text ev w ts s = Ok vs /\ decodes ev ts (Io_Spec.slice bs 0 (types_size ts)) vs) /\
  ((~ exists bs, denotes s bs) -> receive_text ev w ts s = Throw invalid_argument).
Proof. exact any_hex_text. Qed.
Print Assumptions C136_any_text_partial.
(** A character too many at the end is not noticed. *)
Theorem C136_odd_refuted : exists ev w ts s v, ts <> [] /\ Forall vtype_ok ts /\ (~ exists bs, denotes s bs) /\ receive_text ev w ts s = Ok [v].
Proof.
  exists (Env little little), narrow, [TEnc big 1 false], [52; 50; 33], (VInt 66). split; [discriminate|]. split; [repeat constructor|].
  split; [|reflexivity]. intros (bs & L & _). cbn [length] in L. lia.
Qed.
Print Assumptions C136_odd_refuted.
(** The text of some values followed by others is the text of the first followed by the text of the others. *)
Theorem C136_concatenation : forall ev ts us vs ws, Forall2 typed ts vs -> Forall2 typed us ws -> types_size ts + types_size us < size_mod ->
  exists s t, send_text ev ts vs = Ok s /\ send_text ev us ws = Ok t /\ send_text ev (ts ++ us) (vs ++ ws) = Ok (s ++ t).
Proof. exact sent_app. Qed.
Print Assumptions C136_concatenation.

(** A 16 bit number with its high byte first, and a signed byte: "01FFFE", and "01fFfE" is read as well. *)
Example C136_nonvacuous :
  let ts := [TEnc big 2 false; TPlain (SInt 1 true)] in
  Forall portable ts /\ Forall2 typed ts [VInt 511; VInt (-2)] /\
  send_text (Env little little) ts [VInt 511; VInt (-2)] = Ok [48; 49; 70; 70; 70; 69] /\
  receive_text (Env big big) wide ts [48; 49; 102; 70; 102; 69] = Ok [VInt 511; VInt (-2)] /\
  receive_text (Env big big) wide ts [48; 49; 102; 70] = Throw out_of_range /\
  receive_text (Env big big) wide ts [48; 49; 102; 71] = Throw invalid_argument.
Proof. cbv zeta. split; [repeat constructor|]. split; [repeat constructor; cbn; lia|]. repeat split; vm_compute; reflexivity. Qed.
