(** Property theorems C20-C25 (files, streams, to_integer). *)
From Verif Require Import Base Io_Model Io_Spec File_Model File_Spec File_Proofs.

(** C20. *)
Theorem C20_write_then_read : forall w w2 f p r f',
  byte_range_of r -> full_writes w (lenN (rg_mem r)) -> full_reads w2 -> can_read w2 p = true ->
  (write_file w f p r = (f', Ok tt) \/ try_write_file w f p r = (f', Ok true)) ->
  read_file w2 f' p None = Ok (rg_mem r) /\
  (forall n, read_file w2 f' p (Some n) = Ok (takeN n (rg_mem r))) /\
  (forall q, q <> p -> f' q = f q).
Proof. exact file_write_then_read. Qed.
Print Assumptions C20_write_then_read.
Theorem C20_write_exact : forall w f p r, byte_range_of r -> full_writes w (lenN (rg_mem r)) ->
  write_file w f p r = (if can_write w p then (fs_set f p (rg_mem r), Ok tt) else (f, Throw invalid_argument)) /\
  try_write_file w f p r = (if can_write w p then (fs_set f p (rg_mem r), Ok true) else (f, Ok false)).
Proof. exact file_write_exact. Qed.
Print Assumptions C20_write_exact.
Theorem C20_read_exact : forall w f p count, full_reads w ->
  read_file w f p count =
    match (if can_read w p then f p else None) with
    | None => Throw invalid_argument
    | Some c => Ok (match count with None => c | Some n => takeN n c end)
    end.
Proof. exact file_read_exact. Qed.
Print Assumptions C20_read_exact.
Theorem C20_try_read_exact : forall w f p out, full_reads w ->
  try_read_file w f p out =
    match (if can_read w p then f p else None) with
    | None => (out, RErr rd_file_not_found)
    | Some c => (takeN (lenN out) c, RVal (N.min (lenN out) (lenN c)))
    end.
Proof. exact file_try_read_exact. Qed.
Print Assumptions C20_try_read_exact.
Theorem C20_last_write_wins : forall f ops p, Forall fop_fine ops -> fold_left fstep ops f p = latest f p ops.
Proof. exact file_history. Qed.
Print Assumptions C20_last_write_wins.
Definition good_os (n : N) : os := OS (fun _ => true) (fun _ => true) (fun n => n) [n].
Example C20_nonvacuous :
  let r := Range 1 3 [x01; x02; x03] in
  byte_range_of r /\ full_writes (good_os 3) (lenN (rg_mem r)) /\ full_reads (good_os 3) /\
  (let f' := fst (write_file (good_os 3) (fun _ => Some [x09]) 4 r) in
   read_file (good_os 3) f' 4 None = Ok [x01; x02; x03] /\ read_file (good_os 3) f' 4 (Some 2) = Ok [x01; x02] /\
   f' 5 = Some [x09]) /\
  Forall fop_fine [FWrite (good_os 3) 4 r; FTryWrite (good_os 1) 4 (Range 1 1 [x07])].
Proof.
  cbn zeta. split; [split; reflexivity|]. split; [reflexivity|]. split; [intros n; cbn; lia|].
  split; [vm_compute; auto|]. repeat constructor.
Qed.

(** C21. *)
Theorem C21_short_write_unnoticed_refuted : exists w f p r f',
  byte_range_of r /\ try_write_file w f p r = (f', Ok true) /\ write_file w f p r = (f', Ok tt) /\ f' p <> Some (rg_mem r).
Proof. exact incomplete_write_refuted. Qed.
Print Assumptions C21_short_write_unnoticed_refuted.
Theorem C21_write_leaves_prefix_partial : forall w f p n r f', n <= lenN (rg_mem r) ->
  (write_file_n w f p n r = (f', Ok tt) \/ try_write_file_n w f p n r = (f', Ok true)) ->
  (exists c, f' p = Some c /\ prefix_of c (takeN n (rg_mem r))) /\ (forall q, q <> p -> f' q = f q).
Proof. exact write_leaves_prefix. Qed.
Print Assumptions C21_write_leaves_prefix_partial.
Example C21_nonvacuous :
  write_file_n (OS (fun _ => true) (fun _ => true) (fun n => n) [1; 1]) (fun _ => None) 0 3 (Range 1 3 [x01; x02; x03])
  = (fs_set (fun _ => None) 0 [x01; x02], Ok tt).
Proof. reflexivity. Qed.

(** C22.  [write_file_trace]: all file system states the call goes through. *)
Theorem C22_crash_atomic_refuted : exists w f p r c,
  byte_range_of r /\ full_writes w (lenN (rg_mem r)) /\
  In c (fst (write_file_trace w f p (rg_count r) r)) /\ c p <> f p /\ c p <> Some (rg_mem r).
Proof. exact crash_refuted. Qed.
Print Assumptions C22_crash_atomic_refuted.
Theorem C22_crash_leaves_prefix_partial : forall w f p n r c, In c (fst (write_file_trace w f p n r)) ->
  (exists x, c p = Some x /\ prefix_of x (takeN n (rg_mem r))) /\ (forall q, q <> p -> c q = f q).
Proof. exact crash_states. Qed.
Print Assumptions C22_crash_leaves_prefix_partial.
Example C22_nonvacuous :
  map (fun f => f 0) (fst (write_file_trace (OS (fun _ => true) (fun _ => true) (fun n => n) [1; 2]) (fun _ => Some [x09]) 0 3 (Range 1 3 [x01; x02; x03])))
  = [Some []; Some [x01]; Some [x01; x02; x03]].
Proof. reflexivity. Qed.

(** C23. *)
Theorem C23_source_overrun_refuted : exists w f p n r,
  byte_range_of r /\ snd (write_file_n w f p n r) = UB /\ snd (try_write_file_n w f p n r) = UB.
Proof. exact source_overrun_refuted. Qed.
Print Assumptions C23_source_overrun_refuted.
Theorem C23_wide_elements_refuted : exists w f p r f' c,
  range_ok r /\ full_writes w (rg_count r) /\ write_file w f p r = (f', Ok tt) /\ f' p = Some c /\ lenN c < lenN (rg_mem r).
Proof. exact wide_elements_refuted. Qed.
Print Assumptions C23_wide_elements_refuted.
Theorem C23_no_overrun_partial : forall w f p n r,
  snd (write_file_n w f p n r) <> UB /\ snd (try_write_file_n w f p n r) <> UB <->
  n <= lenN (rg_mem r) \/ can_write w p = false.
Proof. exact no_source_overrun. Qed.
Print Assumptions C23_no_overrun_partial.
Theorem C23_counted_write_partial : forall w f p n r, n <= lenN (rg_mem r) -> full_writes w n ->
  write_file_n w f p n r = (if can_write w p then (fs_set f p (takeN n (rg_mem r)), Ok tt) else (f, Throw invalid_argument)) /\
  try_write_file_n w f p n r = (if can_write w p then (fs_set f p (takeN n (rg_mem r)), Ok true) else (f, Ok false)).
Proof. exact file_write_n_exact. Qed.
Print Assumptions C23_counted_write_partial.
Theorem C23_whole_range_partial : forall w f p r, rg_count r <= lenN (rg_mem r) -> full_writes w (rg_count r) ->
  write_file w f p r =
    (if can_write w p then (fs_set f p (takeN (rg_count r) (rg_mem r)), Ok tt) else (f, Throw invalid_argument)) /\
  try_write_file w f p r =
    (if can_write w p then (fs_set f p (takeN (rg_count r) (rg_mem r)), Ok true) else (f, Ok false)).
Proof. exact file_write_range_exact. Qed.
Print Assumptions C23_whole_range_partial.
Example C23_nonvacuous :
  fst (write_file_n (good_os 2) (fun _ => None) 0 2 (Range 1 3 [x01; x02; x03])) 0 = Some [x01; x02].
Proof. reflexivity. Qed.

(** C24. *)
Theorem C24_stream_roundtrip : forall ev svs tail, Forall (fun p => value_ok (fst p) (snd p)) svs ->
  stream_reads ev (map fst svs) (IStream (stream_writes ev svs [] ++ tail) true) =
    (IStream tail true, map snd svs).
Proof. exact stream_roundtrip. Qed.
Print Assumptions C24_stream_roundtrip.
(** A stream that ends early gives the bytes there are, followed by zeros, and is bad ... *)
Theorem C24_short_stream : forall ev s bs, lenN bs < N.of_nat (scalar_bytes s) ->
  exists v, stream_read ev s (IStream bs true) = (IStream [] false, v) /\
    stands_for ev s v (bs ++ repeat x00 (scalar_bytes s - length bs)).
Proof. exact short_stream. Qed.
Print Assumptions C24_short_stream.
(** ... one with enough bytes gives the value they stand for, and keeps the others ... *)
Theorem C24_enough_stream : forall ev s bs, (0 < scalar_bytes s)%nat -> N.of_nat (scalar_bytes s) <= lenN bs ->
  exists v a b, stream_read ev s (IStream bs true) = (IStream b true, v) /\ bs = a ++ b /\ stands_for ev s v a.
Proof. exact enough_stream. Qed.
Print Assumptions C24_enough_stream.
(** ... and a bad one gives zeros. *)
Theorem C24_failed_stream : forall ev ss bs, Forall (fun s => 0 < scalar_bytes s)%nat ss ->
  exists vs, stream_reads ev ss (IStream bs false) = (IStream bs false, vs) /\
    Forall2 (fun s v => stands_for ev s v (repeat x00 (scalar_bytes s))) ss vs.
Proof. exact failed_stream. Qed.
Print Assumptions C24_failed_stream.
Example C24_nonvacuous :
  stream_reads (Env little little) [SInt 2 false; SInt 4 true; SInt 1 false] (IStream [x01; x02; x03; x04; x05] true)
  = (IStream [] false, [VInt 513; VInt 328707; VInt 0]).
Proof. vm_compute; reflexivity. Qed.

(** C25.  [w]: bits of the result type; [z]: the argument's value in its type. *)
Theorem C25_to_integer : forall w k z,
  match k with
  | KStdByte => (0 <= z < 256)%Z /\ 8 <= w
  | KUnsigned vw => (0 <= z < 2 ^ Z.of_N vw)%Z /\ vw <= w
  | KSigned vw => 0 < vw /\ (- 2 ^ (Z.of_N vw - 1) <= z < 2 ^ (Z.of_N vw - 1))%Z /\ vw <= w
  end ->
  to_integer w k z = bit_pattern (match k with KStdByte => 8 | KUnsigned vw | KSigned vw => vw end) z.
Proof. exact to_integer_pattern. Qed.
Print Assumptions C25_to_integer.
Example C25_nonvacuous : to_integer 32 (KSigned 8) (-2) = 254%Z /\ to_integer 8 (KSigned 8) (-128) = 128%Z.
Proof. split; reflexivity. Qed.
