(** C99: writing between two iterators. *)
From Coq Require Import List. Import ListNotations.
From Verif Require Import Base Io_Model Io_Spec IoIter_Model IoIter_Proofs.

(** C99.  write(begin, end, values...) replaces the leading bytes of [begin, end) by the
    encodings and nothing else, or throws and changes nothing if they do not fit there,
    however much room there is behind end ... *)
Theorem C99_write : forall ev args bs buf a b, args <> [] -> Forall arg_ok args -> args_encoding ev args bs ->
  a <= b -> b <= lenN buf -> lenN buf < size_mod -> lenN bs < size_mod ->
  if b - a <? lenN bs then write_iter ev args buf a b = (buf, Throw out_of_range)
  else exists buf', write_iter ev args buf a b = (buf', Ok (lenN bs)) /\ overwritten buf a bs buf'.
Proof. exact write_iter_exact. Qed.
Print Assumptions C99_write.
(** ... write_with_endian(begin, end, value, endianness) likewise ... *)
Theorem C99_write_with_endian : forall ev n sg z e buf a b, typed (TEnc e n sg) (VInt z) ->
  a <= b -> b <= lenN buf -> lenN buf < size_mod -> N.of_nat n < size_mod ->
  if b - a <? N.of_nat n then write_with_endian_iter ev n sg z e buf a b = (buf, Throw out_of_range)
  else exists bs buf', args_encoding ev [AVal (TEnc e n sg) (VInt z)] bs /\ lenN bs = N.of_nat n /\
    write_with_endian_iter ev n sg z e buf a b = (buf', Ok (N.of_nat n)) /\ overwritten buf a bs buf'.
Proof. exact write_with_endian_iter_exact. Qed.
Print Assumptions C99_write_with_endian.
(** ... try_write(begin, end, values...) writes the longest prefix of the values that fits
    before end, and reports an error exactly if it is not all of them ... *)
Theorem C99_try_write : forall ev args buf a b,
  args <> [] -> Forall arg_ok args -> Forall (fun x => arg_bytes x < size_mod) args -> a <= b -> b <= lenN buf -> lenN buf < size_mod ->
  exists pre rest bs buf',
    args = pre ++ rest /\ a + args_size pre <= b /\
    match rest with [] => True | x :: _ => b < a + args_size pre + arg_bytes x end /\
    args_encoding ev pre bs /\ overwritten buf a bs buf' /\
    try_write_iter ev args buf a b = (buf', Ok (match rest with [] => RVal (args_size args) | _ :: _ => RErr wr_insufficient_buffer end)).
Proof. exact try_write_iter_prefix. Qed.
Print Assumptions C99_try_write.
(** ... and unchecked_write and unchecked_read at an iterator do it without a check. *)
Theorem C99_unchecked_write : forall ev x bs buf a, arg_ok x -> arg_encoding ev x bs -> a <= lenN buf -> lenN buf < size_mod ->
  if lenN buf <? a + lenN bs then snd (unchecked_write ev x buf a) = UB
  else exists buf', unchecked_write ev x buf a = (buf', Ok (lenN bs)) /\ overwritten buf a bs buf'.
Proof. exact unchecked_write_exact. Qed.
Print Assumptions C99_unchecked_write.
Theorem C99_unchecked_read : forall ev t v buf a, typed t v -> value_encoding ev t v (slice buf a (value_size t)) ->
  unchecked_read ev t buf a = if lenN buf <? a + value_size t then UB else Ok (v, a + value_size t).
Proof. exact unchecked_read_exact. Qed.
Print Assumptions C99_unchecked_read.
Example C99_nonvacuous :
  let args := [AVal (TEnc big 2 false) (VInt 258); AVal (TPlain (SInt 1 false)) (VInt 7)] in
  Forall arg_ok args /\
  write_iter (Env little little) args (repeat x55 6) 1 4 = ([x55; x01; x02; x07; x55; x55], Ok 3) /\
  write_iter (Env little little) args (repeat x55 6) 1 3 = (repeat x55 6, Throw out_of_range) /\
  try_write_iter (Env little little) args (repeat x55 6) 1 3 = ([x55; x01; x02; x55; x55; x55], Ok (RErr wr_insufficient_buffer)) /\
  unchecked_read (Env little little) (TEnc big 2 false) [x55; x01; x02] 1 = Ok (VInt 258, 3).
Proof. split; [repeat constructor; cbn; lia|vm_compute; auto]. Qed.
