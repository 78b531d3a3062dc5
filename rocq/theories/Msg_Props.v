(** C122: receiving messages whose length is in the data. *)
From Coq Require Import List Lia. Import ListNotations.
From Verif Require Import Base Io_Model Io_Spec IoView_Model IoView_Spec IoPort_Spec Msg_Spec Msg_Proofs.
Local Open Scope N_scope.

(** C122: whatever bytes come in, both receivers stop after at most as many messages as there are bytes, each because
    a call failed in the documented way.  What they delivered are the messages whose bytes are the front of the input,
    and no further message follows there. *)
Theorem C122_any_input : forall ev P buf rounds, protocol_ok P -> lenN buf < ptr_max -> (length buf < rounds)%nat ->
  exists ms front rest s pos,
    receive ev P rounds (rv_init buf) = (ms, s, RView buf pos) /\
    try_receive ev P rounds (rv_init buf) = (ms, s, RView buf (lenN buf)) /\
    buf = front ++ rest /\ Forall (message_ok P) ms /\ messages_encoding ev P ms front /\ no_message ev P rest /\
    ((s = no_length /\ lenN rest < N.of_nat (pr_bytes P) /\ pos = lenN front) \/
     (s = cut_off /\ N.of_nat (pr_bytes P) <= lenN rest /\ pos = lenN front + N.of_nat (pr_bytes P))).
Proof. exact any_input. Qed.
Print Assumptions C122_any_input.

(** C122: of messages sent through a write view, of which the first n bytes arrive, exactly those that arrived whole
    are received; all of them if everything arrived. *)
Theorem C122_sent : forall ev P ms buf n rounds, protocol_ok P -> Forall (message_ok P) ms -> lenN buf < ptr_max ->
  messages_size P ms <= lenN buf -> n <= messages_size P ms -> (N.to_nat n < rounds)%nat ->
  exists data, wv_run ev (wv_init buf) (map (send P) ms) =
      (WView data (messages_size P ms), map (fun m => Ok (WOCount (messages_size P [m]))) ms) /\
    lenN data = lenN buf /\ dropN (messages_size P ms) data = dropN (messages_size P ms) buf /\
    exists done rest s v v', whole_messages P ms n done rest /\
      receive ev P rounds (rv_init (takeN n data)) = (done, s, v) /\
      try_receive ev P rounds (rv_init (takeN n data)) = (done, s, v') /\
      (n = messages_size P ms -> rest = [] /\ s = no_length).
Proof. exact sent_received. Qed.
Print Assumptions C122_sent.

(** Sender and receiver on different machines: elements whose bytes do not depend on the machine (C90). *)
Theorem C122_other_machine : forall ev1 ev2 P ms buf n rounds, configured_right ev1 -> configured_right ev2 -> portable (TPlain (pr_elem P)) ->
  protocol_ok P -> Forall (message_ok P) ms -> lenN buf < ptr_max ->
  messages_size P ms <= lenN buf -> n <= messages_size P ms -> (N.to_nat n < rounds)%nat ->
  exists data, wv_run ev1 (wv_init buf) (map (send P) ms) =
      (WView data (messages_size P ms), map (fun m => Ok (WOCount (messages_size P [m]))) ms) /\
    exists done rest s v v', whole_messages P ms n done rest /\
      receive ev2 P rounds (rv_init (takeN n data)) = (done, s, v) /\
      try_receive ev2 P rounds (rv_init (takeN n data)) = (done, s, v') /\
      (n = messages_size P ms -> rest = [] /\ s = no_length).
Proof. exact sent_elsewhere. Qed.
Print Assumptions C122_other_machine.

(** Messages of 16-bit integers behind a big-endian 16-bit length: two messages, an empty one, and one that claims
    65535 elements. *)
Definition p16 := Protocol big 2 (SInt 2 false).
Definition hostile := [x00; x02; x01; x00; x02; x00; x00; x00; x00; x01; x07; x00; xff; xff; x09; x09; x09].
Example C122_nonvacuous :
  protocol_ok p16 /\ Forall (message_ok p16) [[VInt 1; VInt 2]; []; [VInt 7]] /\
  messages_size p16 [[VInt 1; VInt 2]; []; [VInt 7]] = 12 /\
  receive (Env little little) p16 20 (rv_init hostile) = ([[VInt 1; VInt 2]; []; [VInt 7]], cut_off, RView hostile 14) /\
  try_receive (Env little little) p16 20 (rv_init (takeN 9 hostile)) =
    ([[VInt 1; VInt 2]; []], no_length, RView (takeN 9 hostile) 9) /\
  receive (Env little little) p16 20 (rv_init (takeN 9 hostile)) =
    ([[VInt 1; VInt 2]; []], no_length, RView (takeN 9 hostile) 8).
Proof.
  split; [unfold protocol_ok, p16; cbn [pr_bytes pr_elem scalar_bytes]; split; [lia|]; split; [lia|reflexivity]|].
  split.
  { repeat constructor; cbn; try lia. all: try reflexivity. }
  split; [reflexivity|]. split; [vm_compute; reflexivity|]. split; vm_compute; reflexivity.
Qed.
Definition p8 := Protocol little 2 (SInt 1 true).
Example C122_nonvacuous_machines : configured_right (Env little little) /\ configured_right (Env big big) /\
  portable (TPlain (pr_elem p8)) /\
  wv_run (Env big big) (wv_init (repeat x00 5)) (map (send p8) [[VInt (-1)]; []]) =
    (WView [x01; x00; xff; x00; x00] 5, [Ok (WOCount 3); Ok (WOCount 2)]) /\
  receive (Env little little) p8 9 (rv_init [x01; x00; xff; x00; x00]) =
    ([[VInt (-1)]; []], no_length, RView [x01; x00; xff; x00; x00] 5).
Proof. repeat split; vm_compute; reflexivity. Qed.
