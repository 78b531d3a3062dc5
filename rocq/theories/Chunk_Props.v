(** C128: messages of any form from bytes that arrive in pieces. *)
From Coq Require Import List Lia NArith ZArith. Import ListNotations.
From Verif Require Import Base Io_Model Io_Spec IoView_Model IoView_Spec Chunk_Spec Chunk_Proofs.
Local Open Scope N_scope.

(** The front of a message is no message; the message is the same however much follows. *)
Theorem C128_cut_off : forall (A : Type) ev (r : reader A) d a v n, reader_ok r -> lenN d < size_mod ->
  read_message ev r (rv_init d) = Ok (Some a, v) ->
  exists v', read_message ev r (rv_init (takeN n d)) = Ok (if n <? rv_pos v then None else Some a, v') /\
             (rv_pos v <= n -> rv_pos v' = rv_pos v).
Proof. exact @message_prefix. Qed.
Print Assumptions C128_cut_off.

Theorem C128_more_follows : forall (A : Type) ev (r : reader A) d a v x, reader_ok r -> lenN (d ++ x) < size_mod ->
  read_message ev r (rv_init d) = Ok (Some a, v) ->
  exists v', read_message ev r (rv_init (d ++ x)) = Ok (Some a, v') /\ rv_pos v' = rv_pos v.
Proof. exact @message_more. Qed.
Print Assumptions C128_more_follows.

(** A reader that uses read and one that uses try_read get the same message, or both none, and then stop at the same place. *)
Theorem C128_try : forall (A : Type) ev (r : reader A) d, reader_ok r -> lenN d < size_mod -> exists m v v',
  read_message ev r (rv_init d) = Ok (m, v) /\ try_read_message ev r (rv_init d) = Ok (m, v') /\ (m <> None -> v' = v).
Proof. exact @message_try. Qed.
Print Assumptions C128_try.

(** Whatever the pieces, the receiver returns ... *)
Theorem C128_always : forall (A : Type) ev (r : reader A), reader_ok r -> takes_bytes r -> forall pieces, lenN (concat pieces) < size_mod ->
  exists ms rest, receive_pieces (read_message ev r) [] pieces = Ok (ms, rest).
Proof. exact @all_delivered. Qed.
Print Assumptions C128_always.

(** ... and it has delivered exactly the messages the bytes consist of, up to a rest that starts with none. *)
Theorem C128_delivered : forall (A : Type) ev (r : reader A), reader_ok r -> takes_bytes r -> forall pieces ms rest, lenN (concat pieces) < size_mod ->
  (receive_pieces (read_message ev r) [] pieces = Ok (ms, rest) <->
   exists segs, Forall2 (is_message ev r) segs ms /\ concat pieces = concat segs ++ rest /\ no_message ev r rest).
Proof. exact @delivered. Qed.
Print Assumptions C128_delivered.

(** So it does not matter where the bytes are cut. *)
Theorem C128_any_pieces : forall (A : Type) ev (r : reader A) p1 p2, reader_ok r -> takes_bytes r -> lenN (concat p1) < size_mod ->
  concat p1 = concat p2 -> receive_pieces (read_message ev r) [] p1 = receive_pieces (read_message ev r) [] p2.
Proof. exact @any_pieces. Qed.
Print Assumptions C128_any_pieces.

(** And a receiver that uses try_read delivers the same. *)
Theorem C128_try_receiver : forall (A : Type) ev (r : reader A), reader_ok r -> takes_bytes r -> forall pieces pending,
  lenN (pending ++ concat pieces) < size_mod ->
  receive_pieces (try_read_message ev r) pending pieces = receive_pieces (read_message ev r) pending pieces.
Proof. exact @pieces_try. Qed.
Print Assumptions C128_try_receiver.

(** A tag of one byte says what follows: two numbers of two bytes, or a count and as many bytes. *)
Definition tagged : reader (list value) :=
  Get [TEnc big 1 false] (fun vs =>
    match vs with
    | [VInt 1%Z] => Get [TEnc little 2 false; TEnc big 2 false] Got
    | [VInt 2%Z] => Get [TEnc big 1 false] (fun vs => match vs with [VInt n] => GetRange (TEnc big 1 false) (N.to_nat (Z.to_N n mod 256)) Got | _ => Got [] end)
    | _ => Got vs
    end).
Example C128_nonvacuous :
  reader_ok tagged /\ takes_bytes tagged /\
  (let whole := [x01; x05; x00; x00; x06; x02; x03; x07; x08; x09; x00; x02; x02; x04] in
   let ms := [[VInt 5; VInt 6]; [VInt 7; VInt 8; VInt 9]; [VInt 0]]%Z in
   receive_pieces (read_message (Env little little) tagged) [] [whole] = Ok (ms, [x02; x02; x04]) /\
   receive_pieces (read_message (Env little little) tagged) [] (map (fun b => [b]) whole) = Ok (ms, [x02; x02; x04]) /\
   receive_pieces (try_read_message (Env little little) tagged) [] [[x01; x05; x00]; []; [x00; x06; x02; x03; x07; x08; x09; x00; x02]; [x02; x04]] = Ok (ms, [x02; x02; x04])).
Proof.
  assert (V : forall e n, vtype_ok (TEnc e (S n) false)) by (intros e n; unfold vtype_ok; cbn; lia).
  split; [|split; [exact Logic.I|vm_compute; repeat split]].
  split; [split; [discriminate|split; [apply Forall_cons; [apply V|constructor]|reflexivity]]|].
  intros vs. destruct vs as [|[z|] [|? ?]]; try exact Logic.I. all: destruct z as [|[[?|?|]|[?|?|]|]|]; try exact Logic.I.
  - cbn [reader_ok]. split; [split; [discriminate|split; [apply Forall_cons; [apply V|constructor]|reflexivity]]|].
    intros vs. destruct vs as [|[z|] [|? ?]]; try exact Logic.I. split; [|exact (fun _ => Logic.I)].
    split; [apply V|]. pose proof (N.mod_lt (Z.to_N z) 256 ltac:(discriminate)) as M.
    rewrite N2Nat.id. change (value_size (TEnc big 1 false)) with 1. unfold ptr_max. lia.
  - cbn [reader_ok]. split; [split; [discriminate|split; [repeat (apply Forall_cons; [apply V|]); constructor|reflexivity]]|]. exact (fun _ => Logic.I).
Qed.
