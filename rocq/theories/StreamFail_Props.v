(** C101: streams whose device stops taking bytes. *)
From Coq Require Import List. Import ListNotations.
From Verif Require Import Base Io_Model File_Model StreamFail_Model StreamFail_Spec StreamFail_Proofs.
Local Open Scope N_scope.

(** Whatever the device takes in each call: the first bytes of the values arrive and nothing else, the stream is good
    exactly if all have arrived, and reading them back gives the values whose bytes arrived in full and then
    a stream that is not good. *)
Theorem C101_prefix_survives : forall ev takes svs, Forall (fun p => value_ok (fst p) (snd p)) svs ->
  let st := put_values ev takes svs (OStrm [] 0 true) in
  exists k m, od_out st = takeN k (bytes_of ev svs) /\ fit_into ev svs k m /\ (od_good st = true <-> od_out st = bytes_of ev svs) /\
    (od_good st = true <-> m = length svs) /\
    read_while_good ev (map fst svs) (IStream (od_out st) true) = firstn m (map snd svs) /\
    (is_good (fst (stream_reads ev (map fst svs) (IStream (od_out st) true))) = true <-> m = length svs).
Proof. exact stream_survives. Qed.
Print Assumptions C101_prefix_survives.
(** The same for bytes cut off anywhere on their way: [k] of them are left. *)
Theorem C101_cut_anywhere : forall ev svs, Forall (fun p => value_ok (fst p) (snd p)) svs -> forall k m, fit_into ev svs k m ->
  read_while_good ev (map fst svs) (IStream (takeN k (bytes_of ev svs)) true) = firstn m (map snd svs) /\
  (is_good (fst (stream_reads ev (map fst svs) (IStream (takeN k (bytes_of ev svs)) true))) = true <-> m = length svs) /\
  firstn m (snd (stream_reads ev (map fst svs) (IStream (takeN k (bytes_of ev svs)) true))) = firstn m (map snd svs).
Proof. exact cut_read. Qed.
Print Assumptions C101_cut_anywhere.
Theorem C101_fit_exists : forall ev svs k, exists m, fit_into ev svs k m.
Proof. exact fit_exists. Qed.
Print Assumptions C101_fit_exists.

(** Three two-byte integers; the device takes everything, then one byte, then everything again. *)
Definition three_values : list (scalar * value) := [(SInt 2 false, VInt 258); (SInt 2 false, VInt 772); (SInt 2 false, VInt 1286)].
Definition flaky (i : N) : N := if i =? 1 then 1 else 9.
Example C101_nonvacuous : let ev := Env little little in let st := put_values ev flaky three_values (OStrm [] 0 true) in
  Forall (fun p => value_ok (fst p) (snd p)) three_values /\
  od_out st = [x02; x01; x04] /\ od_good st = false /\ od_calls st = 2 /\ fit_into ev three_values 3 1 /\
  read_while_good ev (map fst three_values) (IStream (od_out st) true) = [VInt 258] /\
  (* a program that does not check takes values that were never written *)
  snd (stream_reads ev (map fst three_values) (IStream (od_out st) true)) = [VInt 258; VInt 4; VInt 0].
Proof.
  cbv zeta. split; [repeat constructor; cbn; lia|]. do 3 (split; [reflexivity|]). split; [|split; reflexivity].
  unfold fit_into. cbn. lia.
Qed.
